(** * C91: random motion of the joints with random axes. *)
From Coq Require Import Reals Lra Lia ZArith Bool String List.
From Verif Require Import Prelude M_Sys M_Math P_Math M_Geom M_Joint M_Kin S_Kin M_Random S_Random M_Draw P_Trig P_Interp P_Random S_Draw C_Random C_Draw M_CustomDraw.
Import ListNotations.
Local Open Scope R_scope.

(** [q] has [n] samples, each of [w] coordinates, and row [j] satisfies [P j]. *)
Definition rows (n w : nat) (P : nat -> list R -> Prop) (q : list (list R)) : Prop :=
  length q = n /\ forall j, (j < n)%nat -> length (nth j q []) = w /\ P j (nth j q []).

Definition sum (x : list R) : R := fold_right Rplus 0 x.
Lemma sum_bound B x : Forall (fun v => - B <= v <= B) x -> - (INR (length x) * B) <= sum x <= INR (length x) * B.
Proof.
  unfold sum. induction 1 as [|v x V F IH]; [cbn; lra|]. cbn [length fold_right]. rewrite S_INR. lra.
Qed.
Lemma sum_sub m x : sum (map (fun v => v - m) x) = sum x - INR (length x) * m.
Proof. unfold sum. induction x as [|v x IH]; [cbn; lra|]. cbn [map length fold_right]. rewrite IH, S_INR. ring. Qed.
Lemma mean_bound B x : x <> [] -> Forall (fun v => - B <= v <= B) x -> - B <= mean x <= B.
Proof.
  intros NE F. apply sum_bound in F. unfold sum in F. unfold mean. assert (P : 0 < INR (length x)) by (apply lt_0_INR; destruct x; [congruence|cbn [length]; lia]).
  split; apply (Rmult_le_reg_r (INR (length x))); try exact P; unfold Rdiv; rewrite Rmult_assoc, Rinv_l by lra; lra.
Qed.
(** The residual angle: as many samples, mean zero, and at most twice the given bound. *)
Lemma limited_ok A q : 0 <= A -> Forall (fun v => - PI <= v <= PI) q ->
  length (limited A q) = length q /\ sum (limited A q) = 0 /\ Forall (fun v => - (2 * deg2rad A) <= v <= 2 * deg2rad A) (limited A q) /\
  forall i j d, (i < length q)%nat -> (j < length q)%nat -> nth i (limited A q) d - nth j (limited A q) d = (nth i q d - nth j q d) * (A / 180).
Proof.
  intros HA F. pose proof PI_RGT_0 as P0. unfold limited. set (c := deg2rad A / PI). set (s := map (fun v => v * c) q). cbv zeta.
  assert (C : c = A / 180) by (unfold c, deg2rad; field; lra).
  assert (CP : 0 <= c) by (rewrite C; unfold Rdiv; apply Rmult_le_pos; lra).
  assert (B : Forall (fun v => - deg2rad A <= v <= deg2rad A) s).
  { unfold s. apply Forall_map. eapply Forall_impl; [|exact F]. intros v V. cbv beta. assert (E : deg2rad A = PI * c) by (unfold c; field; lra). rewrite E.
    replace (- (PI * c)) with (- PI * c) by ring. split; apply Rmult_le_compat_r; lra. }
  split; [now rewrite map_length; unfold s; rewrite map_length|]. split; [|split].
  - rewrite sum_sub. destruct (Nat.eq_dec (length s) 0) as [Z|Z].
    + rewrite Z. destruct s; [|discriminate]. unfold sum. cbn. ring.
    + unfold mean. fold (sum s). field. intros X. apply Z. now apply INR_eq.
  - destruct s as [|v0 s'] eqn:ES; [constructor|]. rewrite <- ES in *. assert (NE : s <> []) by congruence. pose proof (mean_bound _ _ NE B) as M.
    apply Forall_map. eapply Forall_impl; [|exact B]. intros v V. cbv beta. lra.
  - intros i j d Hi Hj. assert (LS : length s = length q) by (unfold s; apply map_length).
    rewrite !(nth_indep (map _ s) d (0 - mean s)) by (rewrite map_length; lia). rewrite !(map_nth (fun v => v - mean s)).
    unfold s at 1 3. rewrite !(nth_indep (map _ q) 0 (d * c)) by (rewrite map_length; lia). rewrite !(map_nth (fun v => v * c)). rewrite C. ring.
Qed.
Lemma column_nth q j : (j < length q)%nat -> nth j (as_column q) [] = [nth j q 0].
Proof. intros H. unfold as_column. rewrite (nth_indep _ [] [0]) by now rewrite map_length. now rewrite (map_nth (fun v => [v])). Qed.
Lemma hcat_columns a b : length a = length b -> exists q, hcat (as_column a) (as_column b) = Ok q /\ length q = length a /\
  forall j, (j < length a)%nat -> nth j q [] = [nth j a 0; nth j b 0].
Proof.
  intros L. unfold hcat, as_column. rewrite !map_length, L, Nat.eqb_refl. eexists. split; [reflexivity|]. rewrite map_length, combine_length, !map_length, L, Nat.min_id. split; [reflexivity|].
  intros j J. set (f := fun r : list R * list R => fst r ++ snd r). rewrite (nth_indep _ [] (f ([0], [0]))) by (rewrite map_length, combine_length, !map_length; lia).
  rewrite (map_nth f). rewrite combine_nth by (rewrite !map_length; exact L). rewrite !(map_nth (fun v => [v])). reflexivity.
Qed.

Section Draws.
Context {K : Type}.
Variable g : rng K.
Hypothesis FAIR : fair g.
Variable parse_float : string -> result R.
Variable c : mconfig.
Hypothesis OK : config_ok parse_float c.
Variables (dt : R) (N : option nat).
Hypothesis DT : 0 < dt.
Notation n := (length (query_times N (c_T c) dt)).

(** A hinge with a random axis moves like a hinge about a coordinate axis, a saddle with random axes like a saddle. *)
Theorem C91_rr kt kv : exists q, draw_rr g parse_float c kt kv dt N = Ok q /\ rows n 1 (fun j r => angle_at c dt j (nth 0 r 0)) q.
Proof.
  destruct (angle_drawn g FAIR parse_float c OK dt DT N true false kt kv) as (q & E & L & H). unfold draw_rr. rewrite E. cbn [bind]. eexists. split; [reflexivity|].
  split; [unfold as_column; now rewrite map_length|]. intros j J. rewrite column_nth by lia. split; [reflexivity|]. now apply H.
Qed.
Theorem C91_rsaddle kt kv : exists q, draw_rsaddle g parse_float c kt kv dt N = Ok q /\
  rows n 2 (fun j r => angle_at c dt j (nth 0 r 0) /\ angle_at c dt j (nth 1 r 0)) q.
Proof.
  unfold draw_rsaddle, draw_saddle. cbn [mapM].
  destruct (angle_drawn g FAIR parse_float c OK dt DT N false false (r_split g kt 2 0) (r_split g kv 2 0)) as (q1 & -> & L1 & H1).
  destruct (angle_drawn g FAIR parse_float c OK dt DT N false false (r_split g kt 2 1) (r_split g kv 2 1)) as (q2 & -> & L2 & H2). cbn [bind].
  destruct (hcat_columns q1 q2 ltac:(congruence)) as (q & E & L & H). cbn [map hcats bind]. rewrite E. exists q. split; [reflexivity|].
  split; [congruence|]. intros j J. rewrite H by lia. split; [reflexivity|]. cbn [nth]. split; [apply H1|apply H2]; lia.
Qed.
(** The imperfect hinge: the first angle as for a hinge; the second one varies around zero. *)
Theorem C91_rr_imp config_res A kt kv : config_ok parse_float config_res -> 0 <= A ->
  exists q, draw_rr_imp g parse_float config_res A c kt kv dt N = Ok q /\
    rows n 2 (fun j r => angle_at c dt j (nth 0 r 0) /\ - (2 * deg2rad A) <= nth 1 r 0 <= 2 * deg2rad A) q /\
    sum (map (fun r => nth 1 r 0) q) = 0 /\
    (forall i j, (i < n)%nat -> (j < n)%nat -> Rabs (nth 1 (nth i q []) 0 - nth 1 (nth j q []) 0) <= 2 * deg2rad A).
Proof.
  intros OR HA. unfold draw_rr_imp.
  destruct (angle_drawn g FAIR parse_float c OK dt DT N true false (r_split g kt 2 0) (r_split g kv 2 0)) as (q1 & -> & L1 & H1). cbn [bind].
  assert (OR' : config_ok parse_float (replace_T config_res (c_T c))).
  { destruct OR. constructor; cbn [replace_T c_T c_t_min c_cor_t_min c_halfsize c_rom c_rom_method c_rnd_angle c_rnd_pos c_bins_min c_bins_max c_method c_ang0_min c_ang0_max c_pos0_min c_pos0_max c_p3d0_min c_p3d0_max c_cor_pos0_min c_cor_pos0_max]; auto.
    exact (S_Draw.co_T _ _ OK). }
  destruct (angle_drawn g FAIR parse_float (replace_T config_res (c_T c)) OR' dt DT N true false (r_split g kt 2 1) (r_split g kv 2 1)) as (q2 & E2 & L2 & H2).
  rewrite E2. cbn [bind]. cbn [replace_T c_T] in L2, H2.
  assert (F : Forall (fun v => - PI <= v <= PI) q2).
  { apply Forall_forall. intros v I. apply (In_nth _ _ 0) in I. destruct I as (j & J & <-). apply H2. lia. }
  destruct (limited_ok A q2 HA F) as (L3 & S0 & B & DI). destruct (hcat_columns q1 (limited A q2) ltac:(congruence)) as (q & E & L & H).
  exists q. split; [exact E|]. rewrite Forall_forall in B. split; [|split].
  - split; [congruence|]. intros j J. rewrite H by lia. split; [reflexivity|]. cbn [nth]. split; [apply H1; lia|]. apply B, nth_In. lia.
  - transitivity (sum (limited A q2)); [|exact S0]. f_equal. apply (nth_ext _ _ 0 0); [rewrite map_length; congruence|]. intros j J. rewrite map_length in J.
    set (f := fun r : list R => nth 1 r 0). assert (EN : nth j (map f q) 0 = f (nth j q [])) by exact (map_nth f q [] j). rewrite EN. unfold f. rewrite H by lia. reflexivity.
  - intros i j I J. rewrite !H by lia. cbn [nth]. rewrite DI by lia.
    pose proof (proj1 (Forall_nth _ q2) F i 0 ltac:(lia)) as Vi. pose proof (proj1 (Forall_nth _ q2) F j 0 ltac:(lia)) as Vj. cbv beta in Vi, Vj.
    rewrite Rabs_mult, (Rabs_right (A / 180)) by lra. replace (2 * deg2rad A) with (2 * PI * (A / 180)) by (unfold deg2rad; field).
    apply Rmult_le_compat_r; [lra|]. apply Rabs_le. lra.
Qed.
End Draws.

(** ** Refuted: the residual angle stays within the given bound.  It is scaled into the bound and centred afterwards, so a motion that
    rests longer on one side leaves the bound on the other. *)
Definition swing : mconfig :=
  mkMC (7 / 2) 1 (fun _ => 3) (fun _ => PI) (fun _ => PI) (fun _ => PI) (fun _ => PI) (fun _ => 0) (fun _ => 2 * PI) (fun _ => 0) (fun _ => 2 * PI)
    (fun _ => 0) (fun _ => 1) (fun _ => -1) (fun _ => 1) (fun _ _ => -1) (fun _ _ => 1) 5 None false false "cosine" true "uniform" (fun _ => 2 * PI)
    (- PI) (- PI) 0 0 (fun _ => 0) (fun _ => 0) 1 (fun _ => 1) (fun _ => 0) (fun _ => 1) (fun _ => -1) (fun _ => 1) 0 0.
Definition swing_args : angle_args := mkAng (fun _ => PI) (fun _ => PI) (fun _ => 0) (fun _ => 2 * PI) 1 (fun _ => 3) 5 true "uniform" (fun _ => 2 * PI).
Lemma swing_ok pf : config_ok pf swing.
Proof. pose proof PI_RGT_0. constructor; cbn; try lra; try discriminate; try (intros; lra). intros _. eexists. reflexivity. Qed.
Lemma swing_next pf t (up : bool) kt ka : let e := if up then - PI else PI in
  resolve_range_of_motion middle pf swing_args (- PI) t e kt ka = Ok (2, - e).
Proof.
  intros e. pose proof PI_RGT_0 as P0.
  destruct (resolve_candidate middle pf swing_args (fun phi => 1 / 2 * (1 - phi / PI)) (- PI) t e eq_refl kt ka) as (n & _ & E & _).
  destruct (candidate_form middle swing_args (fun phi => 1 / 2 * (1 - phi / PI)) (- PI) t e kt ka n) as (k1 & k2 & F). cbv zeta in F. rewrite E, F. f_equal.
  unfold swing_args. cbn [a_t_min a_t_max a_rom a_halfsize a_dang_min a_dang_max]. rewrite middle_uniform by lra.
  replace ((1 + 3) / 2) with 2 by lra. f_equal. unfold next_phi. cbv zeta.
  assert (S1 : sign_of (r_unif middle (r_split middle k2 2 1)) (1 / 2 * (1 - e / PI)) = if up then 1 else -1).
  { unfold sign_of. cbn [middle r_unif]. unfold e. destruct up.
    - replace (- PI / PI) with (-1) by (field; lra). replace (rle _ _) with true; [reflexivity|]. symmetry. apply rle_true. lra.
    - replace (PI / PI) with 1 by (field; lra). replace (rle _ _) with false; [reflexivity|]. symmetry. apply rle_false. lra. }
  rewrite S1. replace (e + (if up then 1 else -1) * PI * 2) with (- e) by (unfold e; destruct up; ring).
  assert (B : - PI <= - e <= PI) by (unfold e; destruct up; lra).
  rewrite !clip_id by exact B. rewrite Rmin_left, Rmax_left by lra. rewrite (Rmax_left (- e)) by lra. rewrite (Rmin_left (- e)) by lra. rewrite middle_uniform by lra. lra.
Qed.
Lemma swing_angles pf kt kv : exists q, draw_rxyz middle pf swing kt kv (3 / 2) (Some 3%nat) true false = Ok q /\ q = [- PI; PI; - PI].
Proof.
  pose proof PI_RGT_0 as P0. unfold draw_rxyz. cbv zeta. cbn [swing c_ang0_min c_ang0_max c_dang_min c_dang_max c_delta_min c_delta_max c_t_min c_t_max c_rom c_rom_method c_halfsize c_rnd_angle c_T].
  rewrite middle_uniform by lra. replace ((- PI + - PI) / 2) with (- PI) by lra. rewrite wrap_id by lra. change (mkAng _ _ _ _ _ _ _ _ _ _) with swing_args.
  unfold random_angle_over_time, angle_table.
  assert (R4 : table_rows (7 / 2) (a_t_min swing_args) = Ok 4%nat).
  { unfold table_rows. cbn [swing_args a_t_min]. destruct (Req_EM_T _ _); [lra|]. rewrite (Int_part_nat (7 / 2 / 1) 3) by (cbn [INR]; lra). reflexivity. }
  rewrite R4. cbn [bind ang_loop]. replace (rle 0 (7 / 2)) with true by (symmetry; apply rle_true; lra).
  rewrite (swing_next pf 0 true). cbn [bind]. replace (rle (0 + 2) (7 / 2)) with true by (symmetry; apply rle_true; lra).
  rewrite Ropp_involutive. rewrite (swing_next pf (0 + 2) false). cbn [bind]. replace (rle (0 + 2 + 2) (7 / 2)) with false by (symmetry; apply rle_false; lra). cbn [bind fst snd].
  assert (G1 : on_grid (3 / 2) (0 + 2) = 3 / 2) by (unfold on_grid; rewrite (Int_part_nat _ 1) by (cbn [INR]; lra); cbn; lra).
  assert (G2 : on_grid (3 / 2) (0 + 2 + 2) = 3) by (unfold on_grid; rewrite (Int_part_nat _ 2) by (cbn [INR]; lra); cbn; lra).
  rewrite G1, G2. replace (pad_table 3 _) with [(0, - PI); (3 / 2, PI); (3, - PI); (3, - PI)] by reflexivity.
  unfold read_table. cbn [bind map fst snd swing_args a_rom]. eexists. split; [reflexivity|].
  unfold query_times. cbn [seq map INR].
  assert (A : ascending [0; 3 / 2; 3; 3]).
  { intros i j [H1 H2]. cbn [length] in *. destruct j as [|[|[|[|j]]]]; try lia; destruct i as [|[|[|[|i]]]]; cbn [nth]; try lia; lra. }
  pose proof (C37_cosine [0; 3 / 2; 3; 3] [- PI; PI; - PI; - PI] A eq_refl ltac:(cbn [length]; lia)) as I.
  set (f := cosInterpolate _ _) in *.
  assert (F0 : f 0 = - PI). { apply (ip_knot _ _ _ I 0%nat); cbn [length]; [lia|]. intros [|[|[|[|j]]]] J; cbn [nth]; try lia; lra. }
  assert (F1 : f (3 / 2) = PI). { apply (ip_knot _ _ _ I 1%nat); cbn [length]; [lia|]. intros [|[|[|[|j]]]] J; cbn [nth]; try lia; lra. }
  assert (F2 : f 3 = - PI). { apply (ip_after _ _ _ I). cbn. lra. }
  replace (0 * (3 / 2)) with 0 by ring. replace (1 * (3 / 2)) with (3 / 2) by ring. replace ((1 + 1) * (3 / 2)) with 3 by field. rewrite F0, F1, F2. reflexivity.
Qed.
Theorem C91_bound_refuted : exists (g : rng unit) config_res c A kt kv q j, fair g /\ config_ok (fun _ => Err EValue) config_res /\ config_ok (fun _ => Err EValue) c /\ 0 < A /\
  draw_rr_imp g (fun _ => Err EValue) config_res A c kt kv (3 / 2) (Some 3%nat) = Ok q /\ (j < length q)%nat /\ deg2rad A < nth 1 (nth j q []) 0.
Proof.
  pose proof PI_RGT_0 as P0. exists middle, swing, swing, (15 / 2), tt, tt.
  destruct (swing_angles (fun _ => Err EValue) (r_split middle tt 2 0) (r_split middle tt 2 0)) as (q1 & E1 & Q1).
  destruct (swing_angles (fun _ => Err EValue) (r_split middle tt 2 1) (r_split middle tt 2 1)) as (q2 & E2 & Q2).
  unfold draw_rr_imp. rewrite E1. cbn [bind]. change (replace_T swing (c_T swing)) with swing. rewrite E2. cbn [bind]. subst q1 q2.
  eexists. exists 1%nat. split; [apply middle_fair|]. split; [apply swing_ok|]. split; [apply swing_ok|]. split; [lra|]. split; [reflexivity|]. split; [cbn; lia|].
  cbn [hcat as_column limited map length Nat.eqb combine fst snd app nth mean fold_right INR]. unfold mean. cbn [fold_right length INR]. unfold deg2rad.
  replace (PI * (15 / 2 * PI / 180 / PI) - (- PI * (15 / 2 * PI / 180 / PI) + (PI * (15 / 2 * PI / 180 / PI) + (- PI * (15 / 2 * PI / 180 / PI) + 0))) / (1 + 1 + 1)) with (PI / 18) by (field; lra).
  lra.
Qed.
Print Assumptions C91_rr.
Print Assumptions C91_rsaddle.
Print Assumptions C91_rr_imp.
Print Assumptions C91_bound_refuted.
Example C91_example : exists q, draw_rr_imp middle (fun _ => Err EValue) swing (15 / 2) swing tt tt (1 / 100) None = Ok q /\ length q = length (query_times None (7 / 2) (1 / 100)) /\
  sum (map (fun r => nth 1 r 0) q) = 0.
Proof.
  destruct (C91_rr_imp middle middle_fair (fun _ => Err EValue) swing (swing_ok _) (1 / 100) None ltac:(lra) swing (15 / 2) tt tt (swing_ok _) ltac:(lra)) as (q & E & (L & _) & S0 & _).
  exists q. split; [exact E|]. split; [exact L|exact S0].
Qed.
