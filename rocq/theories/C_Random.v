(** * C37, C38: interpolation of random motions, and their range. *)
From Coq Require Import Reals Lra Lia ZArith Bool String List Permutation.
From Verif Require Import Prelude M_Math P_Math P_Trig M_Random S_Random P_Interp P_Random.
Import ListNotations.
Local Open Scope R_scope.

(** ** C37 *)

(** cosInterpolate goes through the knots, moves monotonically between neighbours and stays constant after the last. *)
Theorem C37_cosine xp fp : ascending xp -> length fp = length xp -> (0 < length xp)%nat -> interpolates xp fp (cosInterpolate xp fp).
Proof.
  intros A LF L. destruct (blend_interpolates (fun _ => cos_weight) xp fp (fun _ => cos_ramp) A LF L) as [B1 B2 B3 B4 B5].
  split; intros; rewrite ?cosInterpolate_blend; auto. destruct (B4 k v) as (x & Hx & Hv); auto. exists x. now rewrite cosInterpolate_blend.
Qed.

(** So does the randomised interpolation, whatever is drawn. *)
Theorem C37_randomised {K} (g : rng K) bins_min bins_max method xp fp key : fair g ->
  (0 < match bins_max with None => bins_min | Some m => m end)%nat -> (match bins_max with None => True | Some m => bins_min <= m end)%nat ->
  method = "cosine"%string \/ method = "linear"%string -> ascending xp -> length fp = length xp -> (0 < length xp)%nat ->
  exists f, interpolate g bins_min bins_max method xp fp key = Ok f /\ interpolates xp fp f.
Proof.
  intros FAIR P B M A LF L. destruct (interpolate_blend g FAIR bins_min bins_max method xp fp key P B M) as (f & w & E & W & Q). exists f. split; [exact E|].
  destruct (blend_interpolates w xp fp W A LF L) as [B1 B2 B3 B4 B5]. split; intros; rewrite ?Q; auto. destruct (B4 k v) as (x & Hx & Hv); auto. exists x. now rewrite Q.
Qed.

(** Hence all values stay within the bounds of the knots' values. *)
Theorem C37_bounds xp fp f lo hi x : ascending xp -> length fp = length xp -> (0 < length xp)%nat -> interpolates xp fp f ->
  Forall (fun v => lo <= v <= hi) fp -> nth 0 xp 0 <= x -> lo <= f x <= hi.
Proof. apply interpolates_in. Qed.

(** The speed of the cosine interpolation: at most pi/2 times the mean speed between the knots. *)
Lemma cos_lipschitz a b : Rabs (cos a - cos b) <= Rabs (a - b).
Proof.
  assert (X : forall c d, c < d -> Rabs (cos c - cos d) <= Rabs (c - d)).
  { intros c d H. destruct (MVT_cor2 cos (fun x => - sin x) c d H) as (e & E & _).
    - intros y _. apply derivable_pt_lim_cos.
    - rewrite Rabs_minus_sym, E, Rabs_mult, Rabs_Ropp, (Rabs_minus_sym c d). pose proof (SIN_bound e).
      assert (Rabs (sin e) <= 1) by (unfold Rabs; destruct (Rcase_abs _); lra). pose proof (Rabs_pos (d - c)). nra. }
  destruct (Rtotal_order a b) as [H|[->|H]]; [auto| |].
  - rewrite !Rminus_eq_0, Rabs_R0. lra.
  - rewrite Rabs_minus_sym, (Rabs_minus_sym a b). auto.
Qed.
Theorem C37_speed xp fp k x y : ascending xp -> length fp = length xp -> (S k < length xp)%nat ->
  nth k xp 0 <= x < nth (S k) xp 0 -> nth k xp 0 <= y < nth (S k) xp 0 ->
  Rabs (cosInterpolate xp fp x - cosInterpolate xp fp y) <=
    PI / 2 * (Rabs (nth (S k) fp 0 - nth k fp 0) / (nth (S k) xp 0 - nth k xp 0)) * Rabs (x - y).
Proof.
  intros A LF L Hx Hy. rewrite !cosInterpolate_blend.
  destruct (blend_mid (fun _ => cos_weight) xp fp x k A LF L Hx) as (al & Ea & _ & ->).
  destruct (blend_mid (fun _ => cos_weight) xp fp y k A LF L Hy) as (be & Eb & _ & ->).
  set (d := nth (S k) fp 0 - nth k fp 0). set (w := nth (S k) xp 0 - nth k xp 0) in *. assert (W : 0 < w) by (unfold w; lra).
  replace (_ - _) with ((cos_weight al - cos_weight be) * d) by (unfold d; ring). rewrite Rabs_mult.
  assert (C : Rabs (cos_weight al - cos_weight be) <= PI / 2 * (Rabs (x - y) / w)).
  { unfold cos_weight. replace ((1 - cos (al * PI)) / 2 - (1 - cos (be * PI)) / 2) with (- (cos (al * PI) - cos (be * PI)) / 2) by field.
    unfold Rdiv at 1. rewrite Rabs_mult, Rabs_Ropp, (Rabs_right (/ 2)) by lra. pose proof (cos_lipschitz (al * PI) (be * PI)) as X.
    replace (al * PI - be * PI) with ((x - y) / w * PI) in X by (rewrite Ea, Eb; field; lra).
    rewrite Rabs_mult, (Rabs_right PI) in X by (pose proof PI_pos; lra). unfold Rdiv in X at 1. rewrite Rabs_mult, (Rabs_right (/ w)) in X by (left; now apply Rinv_0_lt_compat).
    unfold Rdiv. lra. }
  pose proof (Rabs_pos d). replace (PI / 2 * (Rabs d / w) * Rabs (x - y)) with (PI / 2 * (Rabs (x - y) / w) * Rabs d) by (field; lra).
  apply Rmult_le_compat_r; auto.
Qed.

(** Every drawn change of time keeps the ends of the unit interval and is strictly increasing and onto. *)
Theorem C37_change_of_time {K} (g : rng K) bins_min bins_max : fair g ->
  (0 < match bins_max with None => bins_min | Some m => m end)%nat -> (match bins_max with None => True | Some m => bins_min <= m end)%nat ->
  exists gen, generate_cdf g bins_min bins_max = Ok gen /\ forall key, let b := biject_alpha (gen key) in
    b 0 = 0 /\ b 1 = 1 /\ (forall x y, 0 <= x -> x < y -> y <= 1 -> b x < b y) /\ (forall v, 0 <= v <= 1 -> exists x, 0 <= x <= 1 /\ b x = v).
Proof.
  intros FAIR P B. destruct (generate_cdf_ok g FAIR bins_min bins_max P B) as (gen & E & C). exists gen. split; [exact E|].
  intros key b. destruct (biject_ramp _ _ (C key)) as [b0 b1 bi bo]. auto.
Qed.

(** Everything else is refused. *)
Theorem C37_refused {K} (g : rng K) bins_min bins_max method xp fp key :
  ~ (0 < match bins_max with None => bins_min | Some m => m end)%nat \/ ~ (match bins_max with None => True | Some m => bins_min <= m end)%nat \/
  ~ (method = "cosine"%string \/ method = "linear"%string) -> exists e, interpolate g bins_min bins_max method xp fp key = Err e.
Proof.
  intros H. destruct (interpolate g bins_min bins_max method xp fp key) as [f|e] eqn:E; [exfalso|eauto]. unfold interpolate in E.
  apply bind_Ok in E. destruct E as (gen & G & E). apply bind_Ok in E. destruct E as (u & U & E). apply bind_Ok in E. destruct E as (two & M & _).
  destruct H as [H|[H|H]].
  - destruct (Nat.eqb_spec (match bins_max with None => bins_min | Some m => m end) 0); [discriminate|lia].
  - destruct bins_max as [m|]; [|auto]. unfold generate_cdf, assert_ in G. apply Nat.leb_nle in H. rewrite H in G. discriminate.
  - unfold two_point_interp in M. destruct (String.eqb_spec method "cosine") as [X|X]; [auto|]. destruct (String.eqb_spec method "linear") as [Y|Y]; [auto|]. discriminate.
Qed.

(** ** Examples of generators *)
(** Always the middle of the interval, and upwards *)
Definition middle : rng unit := mkRng (fun _ _ _ => tt) (fun _ => 1 / 2) (fun _ n => repeat (1 / 2) n) (fun _ => true) (fun _ lo _ => lo) (fun _ l => l).
Lemma middle_fair : fair middle.
Proof.
  split.
  - intros k. cbn. lra.
  - intros k n. cbn. split; [apply repeat_length|]. apply Forall_forall. intros u Hu. apply repeat_spec in Hu. subst u. lra.
  - intros k l. cbn. reflexivity.
  - intros k lo hi H. cbn. lia.
Qed.
Example three_knots : let xp := [0; 1; 3] in let fp := [5; 7; 6] in
  cosInterpolate xp fp 1 = 7 /\ between 7 6 (cosInterpolate xp fp 2) /\ cosInterpolate xp fp 4 = 6 /\
  exists f, interpolate middle 5 (Some 7%nat) "linear" xp fp tt = Ok f /\ f 1 = 7 /\ f 4 = 6.
Proof.
  cbv zeta. assert (A : ascending [0; 1; 3]).
  { intros i j [H1 H2]. cbn [length] in H2. destruct j as [|[|[|j]]]; [| | |lia]; destruct i as [|[|[|i]]]; cbn [nth]; try lia; lra. }
  pose proof (C37_cosine [0; 1; 3] [5; 7; 6] A eq_refl ltac:(cbn [length]; lia)) as I. split; [|split; [|split]].
  - apply (ip_knot _ _ _ I 1). { cbn [length]; lia. } intros j Hj. cbn [length] in Hj. assert (j = 2)%nat as -> by lia. cbn [nth]. lra.
  - apply (ip_between _ _ _ I 1 2); [cbn [length]; lia|]. cbn [nth]. lra.
  - apply (ip_after _ _ _ I). cbn. lra.
  - destruct (C37_randomised middle 5 (Some 7%nat) "linear" [0; 1; 3] [5; 7; 6] tt middle_fair) as (f & E & J); try (cbn [length]; lia); auto.
    exists f. split; [exact E|]. split.
    + apply (ip_knot _ _ _ J 1). { cbn [length]; lia. } intros j Hj. cbn [length] in Hj. assert (j = 2)%nat as -> by lia. cbn [nth]. lra.
    + apply (ip_after _ _ _ J). cbn. lra.
Qed.

(** ** C38: angles *)
(** The method of choosing the direction exists (it only matters with a range of motion). *)
Definition method_ok (parse_float : string -> result R) (a : angle_args) : Prop := a_rom a = true -> exists p, prob_up parse_float (a_method a) = Ok p.

Section Draws.
Context {K : Type}.
Variable g : rng K.
Hypothesis FAIR : fair g.
Variable parse_float : string -> result R.

Lemma Rmin_case_le a b : Rmin a b <= a /\ Rmin a b <= b /\ (Rmin a b = a \/ Rmin a b = b).
Proof. unfold Rmin. destruct (Rle_dec a b); lra. Qed.
Lemma Rmax_case_le a b : a <= Rmax a b /\ b <= Rmax a b /\ (Rmax a b = a \/ Rmax a b = b).
Proof. unfold Rmax. destruct (Rle_dec a b); lra. Qed.
Lemma sign_of_cases u p : sign_of u p = 1 \/ sign_of u p = -1.
Proof. unfold sign_of. destruct (rle _ _); auto. Qed.

(** The interval a drawn angle comes from *)
Lemma next_phi_form (rom : bool) p romL romU dmin dmax prev key dt : exists s k, (s = 1 \/ s = -1) /\
  let c := fun x : R => if rom then clip_to_pi x else x in
  let l := c (prev + s * dmin * dt) in let u := c (prev + s * dmax * dt) in
  next_phi g rom p romL romU dmin dmax prev key dt = uniform g k (Rmax (Rmin l u) romL) (Rmin (Rmax l u) romU).
Proof.
  eexists _, _. split; [apply (sign_of_cases (r_unif g (r_split g key 2 1)) p)|]. cbv zeta. unfold next_phi. destruct rom; reflexivity.
Qed.
Lemma next_phi_rom p romL romU dmin dmax prev key dt : romL <= PI -> - PI <= next_phi g true p romL romU dmin dmax prev key dt <= PI.
Proof.
  intros H. destruct (next_phi_form true p romL romU dmin dmax prev key dt) as (s & k & _ & E). cbv zeta in E. rewrite E.
  set (l := clip_to_pi (prev + s * dmin * dt)). set (u := clip_to_pi (prev + s * dmax * dt)).
  assert (Hl : - PI <= l <= PI) by apply clip_in. assert (Hu : - PI <= u <= PI) by apply clip_in. clearbody l u.
  set (L := Rmax (Rmin l u) romL). set (U := Rmin (Rmax l u) romU).
  pose proof (uniform_ge g k L U). pose proof (uniform_le g FAIR k L U).
  pose proof (Rmin_case_le l u). pose proof (Rmax_case_le l u). pose proof (Rmax_case_le (Rmin l u) romL). pose proof (Rmin_case_le (Rmax l u) romU). pose proof (Rmax_case_le L U).
  unfold L, U in *. lra.
Qed.
Lemma clip_mono x y : x <= y -> clip_to_pi x <= clip_to_pi y.
Proof. intros H. pose proof PI_pos. unfold clip_to_pi, Rmin, Rmax. repeat destruct (Rle_dec _ _); lra. Qed.
Lemma clip_id x : - PI <= x <= PI -> clip_to_pi x = x.
Proof. intros H. unfold clip_to_pi, Rmin, Rmax. repeat destruct (Rle_dec _ _); lra. Qed.
Lemma next_phi_low rom p romL romU dmin dmax prev key dt : romL <= next_phi g rom p romL romU dmin dmax prev key dt.
Proof.
  destruct (next_phi_form rom p romL romU dmin dmax prev key dt) as (s & k & _ & E). cbv zeta in E. rewrite E.
  eapply Rle_trans; [apply Rmax_r|apply uniform_ge].
Qed.
Lemma next_phi_high rom p romL romU dmin dmax prev key dt M : 0 <= dt -> dmin <= 0 <= dmax -> prev <= M -> romL <= M -> romU <= M -> (rom = true -> - PI <= M) ->
  next_phi g rom p romL romU dmin dmax prev key dt <= M.
Proof.
  intros DT D H1 H2 H3 H4. destruct (next_phi_form rom p romL romU dmin dmax prev key dt) as (s & k & S & E). cbv zeta in E. rewrite E.
  set (c := fun x : R => if rom then clip_to_pi x else x) in *.
  set (x := prev + s * dmin * dt). set (y := prev + s * dmax * dt).
  assert (XY : x <= prev \/ y <= prev) by (unfold x, y; destruct S as [-> | ->]; [left|right]; nra).
  assert (CX : forall z, z <= prev -> c z <= M).
  { intros z Hz. unfold c. destruct rom; [|lra]. specialize (H4 eq_refl). unfold clip_to_pi, Rmin, Rmax. repeat destruct (Rle_dec _ _); lra. }
  fold (c x) (c y). pose proof (uniform_le g FAIR k (Rmax (Rmin (c x) (c y)) romL) (Rmin (Rmax (c x) (c y)) romU)).
  pose proof (Rmin_case_le (c x) (c y)). pose proof (Rmax_case_le (Rmin (c x) (c y)) romL). pose proof (Rmin_case_le (Rmax (c x) (c y)) romU).
  pose proof (Rmax_case_le (Rmax (Rmin (c x) (c y)) romL) (Rmin (Rmax (c x) (c y)) romU)).
  assert (Rmin (c x) (c y) <= M) by (destruct XY as [XY|XY]; pose proof (CX _ XY); lra). lra.
Qed.
(** With allowed speeds dmin..dmax, and inside the range of motion, the angle moves by at most dmax * dt. *)
Lemma next_phi_speed rom p romL romU dmin dmax prev key dt : 0 <= dt -> 0 <= dmin <= dmax -> romL <= prev -> (rom = true -> - PI <= prev <= PI) ->
  Rabs (next_phi g rom p romL romU dmin dmax prev key dt - prev) <= dmax * dt.
Proof.
  intros DT D H1 H4. destruct (next_phi_form rom p romL romU dmin dmax prev key dt) as (s & k & S & E). cbv zeta in E. rewrite E.
  set (c := fun x : R => if rom then clip_to_pi x else x) in *.
  assert (CP : c prev = prev) by (unfold c; destruct rom; [apply clip_id; auto|reflexivity]).
  assert (CM : forall z w, z <= w -> c z <= c w) by (intros z w Hz; unfold c; destruct rom; [now apply clip_mono|exact Hz]).
  assert (CL : forall z w, z <= w -> c w - c z <= w - z).
  { intros z w Hz. unfold c. destruct rom; [|lra]. unfold clip_to_pi, Rmin, Rmax. pose proof PI_pos. repeat destruct (Rle_dec _ _); lra. }
  set (x := prev + s * dmin * dt). set (y := prev + s * dmax * dt).
  fold (c x) (c y). set (L := Rmax (Rmin (c x) (c y)) romL). set (U := Rmin (Rmax (c x) (c y)) romU).
  pose proof (uniform_ge g k L U). pose proof (uniform_le g FAIR k L U).
  pose proof (Rmin_case_le (c x) (c y)). pose proof (Rmax_case_le (c x) (c y)). pose proof (Rmax_case_le (Rmin (c x) (c y)) romL). pose proof (Rmin_case_le (Rmax (c x) (c y)) romU).
  pose proof (Rmax_case_le L U). unfold L, U in *.
  assert (XB : Rabs (c x - prev) <= dmax * dt /\ Rabs (c y - prev) <= dmax * dt).
  { assert (M1 : 0 <= dmin * dt <= dmax * dt) by nra. rewrite <- CP. destruct S as [-> | ->].
    - assert (A1 : prev <= x) by (unfold x; nra). assert (A2 : prev <= y) by (unfold y; nra).
      pose proof (CM _ _ A1). pose proof (CM _ _ A2). pose proof (CL _ _ A1). pose proof (CL _ _ A2).
      rewrite !Rabs_right by lra. unfold x, y in *. split; nra.
    - assert (A1 : x <= prev) by (unfold x; nra). assert (A2 : y <= prev) by (unfold y; nra).
      pose proof (CM _ _ A1). pose proof (CM _ _ A2). pose proof (CL _ _ A1). pose proof (CL _ _ A2).
      rewrite !Rabs_left1 by lra. unfold x, y in *. split; nra. }
  destruct XB as [X1 X2]. assert (0 <= dmax * dt) by nra.
  assert (PX : - (dmax * dt) <= c x - prev <= dmax * dt) by (revert X1; unfold Rabs; destruct (Rcase_abs _); lra).
  assert (PY : - (dmax * dt) <= c y - prev <= dmax * dt) by (revert X2; unfold Rabs; destruct (Rcase_abs _); lra).
  apply Rabs_le. lra.
Qed.

Lemma resolve_next (a : angle_args) ANG_0 t prev kt ka dt phi : resolve_range_of_motion g parse_float a ANG_0 t prev kt ka = Ok (dt, phi) ->
  exists p ka', phi = next_phi g (a_rom a) p (ANG_0 - a_halfsize a t) (ANG_0 + a_halfsize a t) (a_dang_min a t) (a_dang_max a t) prev ka' dt.
Proof.
  intros E. destruct (prob_up parse_float (if a_rom a then a_method a else "coinflip"%string)) as [prob|e] eqn:P.
  2:{ unfold resolve_range_of_motion in E. rewrite P in E. discriminate. }
  destruct (resolve_candidate g parse_float a prob ANG_0 t prev P kt ka) as (n & _ & E' & _).
  destruct (candidate_form g a prob ANG_0 t prev kt ka n) as (kt' & ka' & F). rewrite F in E'. rewrite E in E'. injection E' as -> ->. eauto.
Qed.

(** With a range of motion all angles lie in [-pi, pi]; without one they are wrapped to [-pi, pi). *)
Theorem C38_angle_range (a : angle_args) rnd kt ka ANG_0 T Ts N : 0 < a_t_min a -> 0 < Ts -> 0 <= T -> method_ok parse_float a -> reads_ok rnd ->
  - PI <= ANG_0 <= PI -> (forall t, 0 <= a_halfsize a t) ->
  exists q, random_angle_over_time g parse_float a rnd kt ka ANG_0 T Ts N = Ok q /\ length q = length (query_times N T Ts) /\
    Forall (fun v => - PI <= v <= PI) q /\ (a_rom a = false -> Forall (fun v => - PI <= v < PI) q).
Proof.
  intros H1 H2 H3 H4 H5 H6 H7. unfold random_angle_over_time. destruct (a_rom a) eqn:RM.
  - destruct (angle_table_ok g FAIR parse_float a ANG_0 T Ts (fun v => - PI <= v <= PI) H1 H2 H4) with (kt := kt) (ka := ka) as (rows & key & tab & E & R1 & _ & OK); auto.
    { intros t prev kt' ka' dt phi _ _ E _. destruct (resolve_next _ _ _ _ _ _ _ _ E) as (p & k & ->). rewrite RM. apply next_phi_rom. specialize (H7 t). lra. }
    rewrite E. cbn [bind fst snd]. destruct (read_in g FAIR rnd (a_t_min a) Ts rows ANG_0 tab key (- PI) PI N T H5 H2 R1 OK) as (q & Eq & Lq & Fq).
    rewrite Eq. cbn [bind]. exists q. repeat split; auto. discriminate.
  - destruct (angle_table_ok g FAIR parse_float a ANG_0 T Ts (fun v => True) H1 H2 H4) with (kt := kt) (ka := ka) as (rows & key & tab & E & R1 & _ & OK); auto.
    rewrite E. cbn [bind fst snd]. destruct (read_table_Ok g FAIR rnd tab key (query_times N T Ts) H5) as (f & Ef & _).
    { apply OK. } { rewrite (to_len _ _ _ _ _ _ OK). exact R1. }
    rewrite Ef. cbn [bind]. eexists. split; [reflexivity|]. split; [now rewrite !map_length|].
    assert (F : Forall (fun v => - PI <= v < PI) (map wrap_to_pi (map f (query_times N T Ts)))).
    { apply Forall_forall. intros v Hv. apply in_map_iff in Hv. destruct Hv as (x & <- & _). apply wrap_range. }
    split; [|auto]. eapply Forall_impl; [|exact F]. cbn beta. intros; lra.
Qed.

(** The table read: with a range of motion as it is, otherwise after wrapping. *)
Definition unwrapped (rom : bool) (v w : R) : Prop := if rom then v = w else v = wrap_to_pi w.

(** Angles are never below [ANG_0 - rom_halfsize]; they are never above [ANG_0 + rom_halfsize] either if the lowest
    allowed speed is not positive. *)
Theorem C38_halfsize (a : angle_args) rnd kt ka ANG_0 T Ts N H : 0 < a_t_min a -> 0 < Ts -> 0 <= T -> method_ok parse_float a -> reads_ok rnd ->
  - PI <= ANG_0 <= PI -> (forall t, 0 <= a_halfsize a t <= H) -> (forall t, a_dang_min a t <= 0 <= a_dang_max a t) ->
  exists q, random_angle_over_time g parse_float a rnd kt ka ANG_0 T Ts N = Ok q /\
    Forall (fun v => exists w, ANG_0 - H <= w <= ANG_0 + H /\ unwrapped (a_rom a) v w) q.
Proof.
  intros H1 H2 H3 H4 H5 H6 H7 H8. unfold random_angle_over_time. pose proof (H7 0) as HH.
  destruct (angle_table_ok g FAIR parse_float a ANG_0 T Ts (fun v => ANG_0 - H <= v <= ANG_0 + H) H1 H2 H4) with (kt := kt) (ka := ka) as (rows & key & tab & E & R1 & _ & OK); auto.
  { intros t prev kt' ka' dt phi _ PP E DT. destruct (resolve_next _ _ _ _ _ _ _ _ E) as (p & k & ->). specialize (H7 t). split.
    - eapply Rle_trans; [|apply next_phi_low]. lra.
    - apply next_phi_high; auto; try lra. }
  { lra. }
  rewrite E. cbn [bind fst snd]. destruct (read_in g FAIR rnd (a_t_min a) Ts rows ANG_0 tab key _ _ N T H5 H2 R1 OK) as (q & Eq & Lq & Fq).
  rewrite Eq. cbn [bind]. eexists. split; [reflexivity|]. rewrite Forall_forall in Fq. unfold unwrapped. destruct (a_rom a).
  - apply Forall_forall. intros v Hv. exists v. auto.
  - apply Forall_forall. intros v Hv. apply in_map_iff in Hv. destruct Hv as (w & <- & Hw). exists w. auto.
Qed.

Lemma bounded_list (l : list R) : exists hi, Forall (fun v => v <= hi) l.
Proof.
  induction l as [|x l (hi & IH)]; [exists 0; constructor|]. exists (Rmax x hi). constructor; [apply Rmax_l|].
  eapply Forall_impl; [|exact IH]. cbn beta. intros v Hv. pose proof (Rmax_r x hi). lra.
Qed.
Theorem C38_halfsize_lower (a : angle_args) rnd kt ka ANG_0 T Ts N H : 0 < a_t_min a -> 0 < Ts -> 0 <= T -> method_ok parse_float a -> reads_ok rnd ->
  (forall t, a_halfsize a t <= H) -> 0 <= H ->
  exists q, random_angle_over_time g parse_float a rnd kt ka ANG_0 T Ts N = Ok q /\
    Forall (fun v => exists w, ANG_0 - H <= w /\ unwrapped (a_rom a) v w) q.
Proof.
  intros H1 H2 H3 H4 H5 H7 H8. unfold random_angle_over_time.
  destruct (angle_table_ok g FAIR parse_float a ANG_0 T Ts (fun v => ANG_0 - H <= v) H1 H2 H4) with (kt := kt) (ka := ka) as (rows & key & tab & E & R1 & _ & OK); auto.
  { intros t prev kt' ka' dt phi _ PP E DT. destruct (resolve_next _ _ _ _ _ _ _ _ E) as (p & k & ->). specialize (H7 t).
    eapply Rle_trans; [|apply next_phi_low]. lra. }
  { lra. }
  rewrite E. cbn [bind fst snd]. destruct (bounded_list (map snd tab)) as (hi & Hhi).
  assert (OK' : table_ok (a_t_min a) Ts rows ANG_0 (fun v => ANG_0 - H <= v <= hi) tab).
  { destruct OK as [B1 B2 B3 B4 B5 B6]. split; auto. rewrite Forall_forall in *. auto. }
  destruct (read_in g FAIR rnd (a_t_min a) Ts rows ANG_0 tab key _ _ N T H5 H2 R1 OK') as (q & Eq & Lq & Fq).
  rewrite Eq. cbn [bind]. eexists. split; [reflexivity|]. rewrite Forall_forall in Fq. unfold unwrapped. destruct (a_rom a).
  - apply Forall_forall. intros v Hv. exists v. split; [apply Fq, Hv|reflexivity].
  - apply Forall_forall. intros v Hv. apply in_map_iff in Hv. destruct Hv as (w & <- & Hw). exists w. split; [apply Fq, Hw|reflexivity].
Qed.

(** The trajectory starts with [ANG_0] if a whole time between two angles fits in, and no two angles fall into one sample. *)
Theorem C38_angle_start (a : angle_args) rnd kt ka ANG_0 T Ts N q : 0 < Ts <= a_t_min a -> a_t_min a <= T -> method_ok parse_float a -> reads_ok rnd ->
  - PI <= ANG_0 < PI -> random_angle_over_time g parse_float a rnd kt ka ANG_0 T Ts N = Ok q -> (0 < length q)%nat -> nth 0 q 0 = ANG_0.
Proof.
  intros H1 H2 H4 H5 H6 E L. unfold random_angle_over_time in E.
  destruct (angle_table_ok g FAIR parse_float a ANG_0 T Ts (fun v => True) ltac:(lra) ltac:(lra) H4) with (kt := kt) (ka := ka) as (rows & key & tab & E1 & R1 & R2 & OK); auto; [lra|].
  rewrite E1 in E. cbn [bind fst snd] in E. apply bind_Ok in E. destruct E as (q' & E & X). injection X as <-.
  assert (RR : (2 <= rows)%nat).
  { assert (1 <= T / a_t_min a). { apply (Rmult_le_reg_r (a_t_min a)); [lra|]. replace (T / a_t_min a * a_t_min a) with T by (field; lra). lra. }
    assert (1 < INR rows) as X by lra. change 1 with (INR 1) in X. apply INR_lt in X. lia. }
  assert (LQ : (0 < length q')%nat) by (destruct (a_rom a); [exact L|now rewrite map_length in L]).
  pose proof (read_first g FAIR rnd (a_t_min a) Ts rows ANG_0 _ tab key N T q' H5 H1 RR OK E LQ) as F. destruct (a_rom a); [exact F|].
  rewrite (nth_indep _ 0 (wrap_to_pi 0)) by now rewrite map_length. rewrite map_nth, F. now apply wrap_id.
Qed.

(** One step: the time between two angles is allowed, the angle moves by at most the highest speed; and either the
    speed and the change are allowed or none of the first [max_iter + 1] candidates has an allowed speed and change. *)
Theorem C38_angle_step (a : angle_args) prob ANG_0 t prev kt ka : 0 < a_t_min a ->
  prob_up parse_float (if a_rom a then a_method a else "coinflip"%string) = Ok prob ->
  0 <= a_dang_min a t <= a_dang_max a t -> ANG_0 - a_halfsize a t <= prev -> (a_rom a = true -> - PI <= prev <= PI) ->
  exists dt phi, resolve_range_of_motion g parse_float a ANG_0 t prev kt ka = Ok (dt, phi) /\
    a_t_min a <= dt <= Rmax (a_t_min a) (a_t_max a t) /\ Rabs (phi - prev) <= a_dang_max a t * dt /\
    ((a_delta_min a t <= Rabs (phi - prev) <= a_delta_max a t /\ a_dang_min a t <= Rabs (phi - prev) / dt <= a_dang_max a t) \/
     forall j, (j < a_max_iter a)%nat -> angle_ok a t prev (fst (candidate g a prob ANG_0 t prev kt ka j)) (snd (candidate g a prob ANG_0 t prev kt ka j)) = false).
Proof.
  intros TM P D LO RM. destruct (resolve_candidate g parse_float a prob ANG_0 t prev P kt ka) as (n & LN & E & NG & OK).
  destruct (candidate_form g a prob ANG_0 t prev kt ka n) as (kt' & ka' & F). cbv zeta in F. set (dt := uniform g kt' (a_t_min a) (a_t_max a t)) in *.
  set (phi := next_phi g _ _ _ _ _ _ _ _ _) in F. exists dt, phi. rewrite F in E, OK. cbn [fst snd] in OK.
  assert (DT : a_t_min a <= dt <= Rmax (a_t_min a) (a_t_max a t)) by (split; [apply uniform_ge|now apply uniform_le]).
  split; [exact E|]. split; [exact DT|]. split; [apply next_phi_speed; auto; lra|].
  destruct OK as [->|OK]; [right; exact NG|left]. unfold angle_ok in OK. cbv zeta in OK. rewrite !andb_true_iff, !rle_true in OK. lra.
Qed.

(** Without motion the angle stays. *)
Lemma table_const (P : R -> Prop) t_min Ts rows v0 tab v : table_ok t_min Ts rows v0 P tab -> (forall w, P w -> w = v) ->
  table_ok t_min Ts rows v0 (fun w => v <= w <= v) tab.
Proof. intros [B1 B2 B3 B4 B5 B6] H. split; auto. rewrite Forall_forall in *. intros w Hw. rewrite (H w); [lra|auto]. Qed.
Lemma forall_repeat (q : list R) v : Forall (fun w => v <= w <= v) q -> q = repeat v (length q).
Proof. induction 1 as [|w q Hw F IH]; [reflexivity|]. cbn [length repeat]. f_equal; [lra|exact IH]. Qed.
Theorem C38_angle_still (a : angle_args) rnd kt ka ANG_0 T Ts N : 0 < a_t_min a -> 0 < Ts -> 0 <= T -> method_ok parse_float a -> reads_ok rnd ->
  - PI <= ANG_0 < PI -> (forall t, 0 <= a_halfsize a t) -> (forall t, a_dang_min a t = 0 /\ a_dang_max a t = 0) ->
  random_angle_over_time g parse_float a rnd kt ka ANG_0 T Ts N = Ok (repeat ANG_0 (length (query_times N T Ts))).
Proof.
  intros H1 H2 H3 H4 H5 H6 H7 H8. unfold random_angle_over_time.
  destruct (angle_table_ok g FAIR parse_float a ANG_0 T Ts (fun v => v = ANG_0) H1 H2 H4) with (kt := kt) (ka := ka) as (rows & key & tab & E & R1 & _ & OK); auto.
  { intros t prev kt' ka' dt phi _ -> E DT. destruct (resolve_next _ _ _ _ _ _ _ _ E) as (p & k & ->). destruct (H8 t) as [D1 D2]. rewrite D1, D2.
    pose proof (next_phi_speed (a_rom a) p (ANG_0 - a_halfsize a t) (ANG_0 + a_halfsize a t) 0 0 ANG_0 k dt ltac:(lra) ltac:(lra)) as X.
    specialize (X ltac:(specialize (H7 t); lra) ltac:(intros; lra)). revert X. unfold Rabs. destruct (Rcase_abs _); lra. }
  rewrite E. cbn [bind fst snd].
  destruct (read_in g FAIR rnd (a_t_min a) Ts rows ANG_0 tab key _ _ N T H5 H2 R1 (table_const _ _ _ _ _ _ ANG_0 OK (fun w X => X))) as (q & Eq & Lq & Fq).
  rewrite Eq. cbn [bind]. apply forall_repeat in Fq. rewrite Lq in Fq. subst q. destruct (a_rom a); [reflexivity|]. f_equal.
  clear Eq Lq. generalize (length (query_times N T Ts)) as n. induction n as [|n IH]; [reflexivity|]. cbn [repeat map]. now rewrite IH, wrap_id.
Qed.

(** ** C38: positions *)
(** The search finds an acceptable value: from every value in the range, one of the tries is acceptable. *)
Definition search_succeeds (a : pos_args) (lo hi : R) : Prop := forall t t_pre x_pre key, lo <= x_pre <= hi -> p_t_min a <= t - t_pre <= Rmax (p_t_min a) (p_t_max a t_pre) ->
  exists j, (j <= p_max_it a)%nat /\ pos_ok a t t_pre x_pre (tried g a t t_pre x_pre key j) = true.

Lemma pos_ok_range a t t_pre x_pre x : pos_ok a t t_pre x_pre x = true -> p_min a t_pre <= x <= p_max a t_pre /\
  p_dmin a t_pre < Rabs ((x - x_pre) / (t - t_pre)) < p_dmax a t_pre.
Proof. unfold pos_ok. cbv zeta. rewrite !andb_true_iff, !rle_true, !rlt_true. lra. Qed.

(** One step: the new value is in range and its speed is allowed, or none of the [max_it] + 1 tries was; then it is
    the last try. *)
Theorem C38_position_step (a : pos_args) t t_pre x_pre key : t_pre < t -> 0 <= p_dmin a t_pre <= p_dmax a t_pre ->
  exists i x key', while (S (S (p_max_it a))) (try_cond a t t_pre x_pre) (try_body g a t t_pre x_pre) (0%nat, x_pre, key) = Ok (i, x, key') /\
    p_dmin a t_pre <= Rabs ((x - x_pre) / (t - t_pre)) <= p_dmax a t_pre /\
    (p_min a t_pre <= x <= p_max a t_pre \/ forall j, (j <= p_max_it a)%nat -> pos_ok a t t_pre x_pre (tried g a t t_pre x_pre key j) = false).
Proof.
  intros HT HD. destruct (search_ends g a t t_pre x_pre key) as (x & key' & (i & E) & H). exists i, x, key'. split; [exact E|].
  destruct H as [(-> & OK)|(n & LN & -> & NG & OK)].
  - apply pos_ok_range in OK. split; [lra|]. left. lra.
  - split.
    + destruct (tried_speed g a t t_pre x_pre key n LN) as (s & k & S & ->). pose proof (uniform_ge g k (p_dmin a t_pre) (p_dmax a t_pre)).
      pose proof (uniform_le g FAIR k (p_dmin a t_pre) (p_dmax a t_pre)). rewrite Rmax_right in * by lra. set (u := uniform g k _ _) in *.
      replace ((x_pre + s * u * (t - t_pre) - x_pre) / (t - t_pre)) with (s * u) by (field; lra). destruct S as [-> | ->].
      * rewrite Rabs_right; lra.
      * replace (-1 * u) with (- u) by ring. rewrite Rabs_Ropp, Rabs_right; lra.
    + destruct (pos_ok a t t_pre x_pre (tried g a t t_pre x_pre key n)) eqn:OK'.
      * left. now apply pos_ok_range in OK'.
      * right. destruct OK as [->|]; [|discriminate]. intros j Hj. destruct (Nat.eq_dec j (p_max_it a)) as [->|]; [exact OK'|]. apply NG. lia.
Qed.

Theorem C38_position_partial (a : pos_args) rnd key POS_0 T Ts N lo hi : 0 < p_t_min a -> 0 < Ts -> 0 <= T -> reads_ok rnd ->
  lo <= POS_0 <= hi -> (forall t, lo <= p_min a t /\ p_max a t <= hi) -> search_succeeds a lo hi ->
  exists q, random_position_over_time g a rnd key POS_0 T Ts N = Ok q /\ length q = length (query_times N T Ts) /\ Forall (fun v => lo <= v <= hi) q.
Proof.
  intros H1 H2 H3 H5 H6 H7 SS. unfold random_position_over_time.
  destruct (position_table_ok g FAIR a POS_0 T Ts (fun v => lo <= v <= hi) H1 H2) with (key := key) as (rows & key' & tab & E & R1 & _ & OK); auto.
  - intros t_pre t x_pre k i x k' T0 DT PX E. destruct (search_ends g a t t_pre x_pre k) as (x1 & key1 & (i1 & E1) & H). rewrite E in E1. injection E1 as -> -> ->.
    specialize (H7 t_pre). assert (OK : pos_ok a t t_pre x_pre x1 = true).
    { destruct H as [(-> & OK)|(n & LN & -> & NG & OK)]; [exact OK|]. destruct OK as [->|OK]; [|exact OK].
      destruct (SS t t_pre x_pre k PX DT) as (j & Hj & J). destruct (Nat.eq_dec j (p_max_it a)) as [<-|]; [exact J|]. rewrite NG in J by lia. discriminate. }
    apply pos_ok_range in OK. lra.
  - rewrite E. cbn [bind fst snd]. apply (read_in g FAIR rnd (p_t_min a) Ts rows POS_0 tab key' lo hi N T H5 H2 R1 OK).
Qed.
Theorem C38_position_total (a : pos_args) rnd key POS_0 T Ts N : 0 < p_t_min a -> 0 < Ts -> 0 <= T -> reads_ok rnd ->
  exists q, random_position_over_time g a rnd key POS_0 T Ts N = Ok q /\ length q = length (query_times N T Ts) /\
    (Ts <= p_t_min a <= T -> (0 < length q)%nat -> nth 0 q 0 = POS_0).
Proof.
  intros H1 H2 H3 H5. unfold random_position_over_time.
  destruct (position_table_ok g FAIR a POS_0 T Ts (fun v => True) H1 H2) with (key := key) as (rows & key' & tab & E & R1 & R2 & OK); auto.
  rewrite E. cbn [bind fst snd]. destruct (read_table_Ok g FAIR rnd tab key' (query_times N T Ts) H5) as (f & Ef & _).
  { apply OK. } { rewrite (to_len _ _ _ _ _ _ OK). exact R1. }
  eexists. split; [exact Ef|]. split; [now rewrite map_length|]. intros H6 L.
  assert (RR : (2 <= rows)%nat).
  { assert (1 <= T / p_t_min a). { apply (Rmult_le_reg_r (p_t_min a)); [lra|]. replace (T / p_t_min a * p_t_min a) with T by (field; lra). lra. }
    assert (1 < INR rows) as X by lra. change 1 with (INR 1) in X. apply INR_lt in X. lia. }
  apply (read_first g FAIR rnd (p_t_min a) Ts rows POS_0 _ tab key' N T _ H5 ltac:(lra) RR OK Ef L).
Qed.
Theorem C38_position_still (a : pos_args) rnd key POS_0 T Ts N : 0 < p_t_min a -> 0 < Ts -> 0 <= T -> reads_ok rnd ->
  (forall t, p_dmin a t = 0 /\ p_dmax a t = 0) ->
  random_position_over_time g a rnd key POS_0 T Ts N = Ok (repeat POS_0 (length (query_times N T Ts))).
Proof.
  intros H1 H2 H3 H5 H8. unfold random_position_over_time.
  destruct (position_table_ok g FAIR a POS_0 T Ts (fun v => v = POS_0) H1 H2) with (key := key) as (rows & key' & tab & E & R1 & _ & OK); auto.
  - intros t_pre t x_pre k i x k' T0 DT -> E. destruct (H8 t_pre) as [D1 D2].
    destruct (C38_position_step a t t_pre POS_0 k ltac:(lra) ltac:(lra)) as (i1 & x1 & k1 & E1 & SP & _). rewrite E in E1. injection E1 as -> -> ->.
    rewrite D1, D2 in SP. assert (Z : Rabs ((x1 - POS_0) / (t - t_pre)) = 0) by lra. assert (Z0 : (x1 - POS_0) / (t - t_pre) = 0) by (revert Z; unfold Rabs; destruct (Rcase_abs _); lra).
    assert (x1 - POS_0 = 0); [|lra]. replace (x1 - POS_0) with ((x1 - POS_0) / (t - t_pre) * (t - t_pre)) by (field; lra). rewrite Z0. ring.
  - rewrite E. cbn [bind fst snd].
    destruct (read_in g FAIR rnd (p_t_min a) Ts rows POS_0 tab key' _ _ N T H5 H2 R1 (table_const _ _ _ _ _ _ POS_0 OK (fun w X => X))) as (q & Eq & Lq & Fq).
    rewrite Eq. f_equal. apply forall_repeat in Fq. now rewrite Lq in Fq.
Qed.
End Draws.

(** The direction: the probability of moving upwards is a probability, and, except with coin flips, an angle at the end
    of the range always turns back. *)
Theorem C38_turns_back (parse_float : string -> result R) method p : prob_up parse_float method = Ok p ->
  (forall phi, - PI <= phi <= PI -> 0 <= p phi <= 1) /\
  (method <> "coinflip"%string -> forall u, 0 <= u < 1 -> sign_of u (p PI) = -1 /\ sign_of u (p (- PI)) = 1).
Proof.
  intros E. pose proof PI_RGT_0 as P. pose proof PI2_1 as P2. unfold prob_up in E. unfold sign_of.
  destruct (String.eqb_spec method "coinflip"); [injection E as <-; split; [intros; lra|contradiction]|].
  destruct (String.eqb_spec method "uniform").
  - injection E as <-. split.
    + intros phi H. assert (-1 <= phi / PI <= 1). { split; apply (Rmult_le_reg_r PI); try lra; replace (phi / PI * PI) with phi by (field; lra); lra. } lra.
    + intros _ u U. replace (- PI / PI) with (-1) by (field; lra). replace (PI / PI) with 1 by (field; lra). split.
      * replace (rle _ _) with false; [reflexivity|]. symmetry. apply rle_false. lra.
      * replace (rle _ _) with true; [reflexivity|]. symmetry. apply rle_true. lra.
  - destruct (String.eqb _ _); [|discriminate]. apply bind_Ok in E. destruct E as (sc & _ & E). injection E as <-. split.
    + intros phi H. destruct (rlt _ _); [lra|]. destruct (rlt _ _); [lra|]. pose proof (exp_pos (- (- sc * phi))) as X.
      split; [apply Rmult_le_pos; [lra|left; apply Rinv_0_lt_compat; lra]|]. apply (Rmult_le_reg_r (1 + exp (- (- sc * phi)))); [lra|].
      replace (1 / (1 + exp (- (- sc * phi))) * (1 + exp (- (- sc * phi)))) with 1 by (field; lra). lra.
    + intros _ u U. replace (rlt (PI - 1 / 100) PI) with true by (symmetry; apply rlt_true; lra).
      replace (rlt (PI - 1 / 100) (- PI)) with false by (symmetry; apply rlt_false; lra).
      replace (rlt (- PI) (- (PI - 1 / 100))) with true by (symmetry; apply rlt_true; lra). split.
      * replace (rle _ _) with false; [reflexivity|]. symmetry. apply rle_false. lra.
      * replace (rle _ _) with true; [reflexivity|]. symmetry. apply rle_true. lra.
Qed.

(** ** Refuted *)
(** The default configuration (jcalc.py 20-80), but with the given half size of the range. *)
Definition usual_angle (rom : bool) (halfsize : R) : angle_args :=
  mkAng (fun _ => 1 / 10) (fun _ => 3) (fun _ => 0) (fun _ => 2 * PI) (5 / 100) (fun _ => 30 / 100) 5 rom "uniform" (fun _ => halfsize).
Definition usual_position : pos_args := mkPos (fun _ => - (5 / 2)) (fun _ => 5 / 2) (fun _ => 1 / 1000) (fun _ => 7 / 10) (5 / 100) (fun _ => 30 / 100) 100.

Lemma middle_uniform k lo hi : lo <= hi -> uniform middle k lo hi = (lo + hi) / 2.
Proof. intros H. unfold uniform, scaled. cbn [middle r_unif]. rewrite Rmax_right; lra. Qed.
Lemma middle_uniform_low k lo hi : hi <= lo -> uniform middle k lo hi = lo.
Proof. intros H. unfold uniform, scaled. cbn [middle r_unif]. rewrite Rmax_left; lra. Qed.

Lemma usual_next h kt ka : 0 <= h <= 1 / 100 ->
  resolve_range_of_motion middle (fun _ => Err EValue) (usual_angle true h) 0 0 0 kt ka = Ok (175 / 1000, 175 / 10000).
Proof.
  intros Hh. destruct (resolve_candidate middle (fun _ => Err EValue) (usual_angle true h) (fun phi => 1 / 2 * (1 - phi / PI)) 0 0 0 eq_refl kt ka) as (n & _ & E & _).
  destruct (candidate_form middle (usual_angle true h) (fun phi => 1 / 2 * (1 - phi / PI)) 0 0 0 kt ka n) as (k1 & k2 & F). cbv zeta in F. rewrite E, F. f_equal.
  unfold usual_angle. cbn [a_t_min a_t_max a_rom a_halfsize a_dang_min a_dang_max]. rewrite middle_uniform by lra.
  replace ((5 / 100 + 30 / 100) / 2) with (175 / 1000) by lra. f_equal. unfold next_phi. cbv zeta.
  assert (S1 : sign_of (r_unif middle (r_split middle k2 2 1)) (1 / 2 * (1 - 0 / PI)) = 1).
  { unfold sign_of. replace (rle _ _) with true; [reflexivity|]. symmetry. apply rle_true. cbn [middle r_unif]. replace (0 / PI) with 0 by (unfold Rdiv; ring). lra. }
  rewrite S1. pose proof PI_RGT_0. pose proof PI2_1. assert (P1 : 1 < PI / 2) by lra.
  rewrite !clip_id by lra. rewrite (Rmin_left (0 + 1 * (1 / 10) * (175 / 1000))) by lra. rewrite (Rmax_right (0 + 1 * (1 / 10) * (175 / 1000)) (0 + 1 * 3 * (175 / 1000))) by lra.
  rewrite (Rmax_left _ (0 - h)) by lra. rewrite (Rmin_right _ (0 + h)) by lra.
  rewrite middle_uniform_low by lra. lra.
Qed.

(** A table of two different rows, the last repeated, read at the 18th sample *)
Lemma read_18 (tm t1 v0 v1 T : R) key : 0 <= T -> t1 = 17 / 100 ->
  exists q, read_table middle None [(0, v0); (t1, v1); (t1, v1)] key (query_times (Some 18%nat) T (1 / 100)) = Ok q /\ nth 17 q 0 = v1 /\ length q = 18%nat.
Proof.
  intros _ ->. eexists. split; [reflexivity|]. split; [|now rewrite map_length, query_times_length].
  set (f := cosInterpolate _ _). rewrite (nth_indep _ 0 (f 0)) by (rewrite map_length, query_times_length; lia). rewrite map_nth, query_times_nth by (rewrite query_times_length; lia).
  replace (INR 17 * (1 / 100)) with (17 / 100) by (cbn [INR]; lra). unfold f.
  assert (A : ascending (map fst [(0, v0); (17 / 100, v1); (17 / 100, v1)])).
  { intros i j [H1 H2]. cbn [length map fst] in *. destruct j as [|[|[|j]]]; [| | |lia]; destruct i as [|[|[|i]]]; cbn [nth]; try lia; lra. }
  pose proof (C37_cosine _ (map snd [(0, v0); (17 / 100, v1); (17 / 100, v1)]) A eq_refl ltac:(cbn [length map]; lia)) as I.
  apply (ip_after _ _ _ I). cbn. lra.
Qed.

Lemma usual_rows : table_rows (1 / 10) (5 / 100) = Ok 3%nat.
Proof.
  unfold table_rows. destruct (Req_EM_T _ _); [lra|]. rewrite (Int_part_nat (1 / 10 / (5 / 100)) 2) by (cbn [INR]; lra). reflexivity.
Qed.
Lemma usual_grid : on_grid (1 / 100) (0 + 175 / 1000) = 17 / 100.
Proof. unfold on_grid. rewrite (Int_part_nat _ 17) by (cbn [INR]; lra). cbn [Z.of_nat Pos.of_succ_nat Pos.succ]. lra. Qed.

(** The upper limit of the range is exceeded when even the lowest allowed speed leads out of it. *)
Theorem C38_halfsize_refuted : exists (g : rng unit) q v, fair g /\
  random_angle_over_time g (fun _ => Err EValue) (usual_angle true (1 / 100)) None tt tt 0 (1 / 10) (1 / 100) (Some 18%nat) = Ok q /\ In v q /\ 0 + 1 / 100 < v.
Proof.
  destruct (read_18 0 (17 / 100) 0 (175 / 10000) (1 / 10) tt ltac:(lra) eq_refl) as (q & E & V & L).
  exists middle, q, (175 / 10000). split; [apply middle_fair|]. split; [|split].
  - unfold random_angle_over_time, angle_table. cbn [usual_angle a_t_min]. rewrite usual_rows. cbn [bind ang_loop].
    replace (rle 0 (1 / 10)) with true by (symmetry; apply rle_true; lra). fold (usual_angle true (1 / 100)). rewrite (usual_next (1 / 100)) by lra. cbn [bind].
    rewrite usual_grid. replace (rle (0 + 175 / 1000) (1 / 10)) with false by (symmetry; apply rle_false; lra). cbn [bind fst snd].
    replace (pad_table 2 _) with [(0, 0); (17 / 100, 175 / 10000); (17 / 100, 175 / 10000)] by reflexivity.
    assert (KE : forall k, read_table middle None [(0, 0); (17 / 100, 175 / 10000); (17 / 100, 175 / 10000)] k (query_times (Some 18%nat) (1 / 10) (1 / 100)) = Ok q) by (intros; exact E).
    rewrite KE. reflexivity.
  - rewrite <- V. apply nth_In. lia.
  - lra.
Qed.

(** Positions leave their range when all tries fail: the last try is kept (jcalc's default values, starting at the limit). *)
Theorem C38_position_refuted : exists (g : rng unit) q v, fair g /\
  random_position_over_time g usual_position None tt (5 / 2) (1 / 10) (1 / 100) (Some 18%nat) = Ok q /\ In v q /\ 5 / 2 < v.
Proof.
  set (v1 := 5 / 2 + 3505 / 10000 * (175 / 1000)).
  destruct (read_18 0 (17 / 100) (5 / 2) v1 (1 / 10) tt ltac:(lra) eq_refl) as (q & E & V & L).
  exists middle, q, v1. split; [apply middle_fair|]. split; [|split].
  - unfold random_position_over_time, position_table. cbn [p_t_min usual_position]. rewrite usual_rows. cbn [bind pos_loop].
    replace (rle 0 (1 / 10)) with true by (symmetry; apply rle_true; lra). cbn [p_t_max p_t_min usual_position]. rewrite middle_uniform by lra.
    replace ((5 / 100 + 30 / 100) / 2) with (175 / 1000) by lra. change (mkPos _ _ _ _ _ _ _) with usual_position.
    destruct (search_ends middle usual_position (0 + 175 / 1000) 0 (5 / 2) (r_split middle tt 2 0)) as (x & k' & (i & EW) & H).
    assert (TR : forall j, (j <= 100)%nat -> tried middle usual_position (0 + 175 / 1000) 0 (5 / 2) (r_split middle tt 2 0) j = v1).
    { intros j Hj. unfold tried. cbn [Nat.iter nat_rect]. change (nat_rect _ _ (fun _ => try_body middle usual_position (0 + 175 / 1000) 0 (5 / 2)) j) with (Nat.iter j (try_body middle usual_position (0 + 175 / 1000) 0 (5 / 2)) (0%nat, 5 / 2, r_split middle tt 2 0)).
      pose proof (try_count middle usual_position (0 + 175 / 1000) 0 (5 / 2) j (0%nat, 5 / 2, r_split middle tt 2 0)) as Z.
      destruct (Nat.iter j _ _) as [[i1 x1] k1]. cbn [fst] in Z. cbn [try_body]. destruct (Nat.ltb_spec (p_max_it usual_position) i1) as [Q|Q]; [cbn [p_max_it usual_position] in Q; lia|].
      cbn [fst snd middle r_coin p_dmin p_dmax usual_position]. fold middle. rewrite middle_uniform by lra. unfold v1. lra. }
    assert (NO : pos_ok usual_position (0 + 175 / 1000) 0 (5 / 2) v1 = false).
    { unfold pos_ok. cbn [p_max usual_position]. replace (rle v1 (5 / 2)) with false by (symmetry; apply rle_false; unfold v1; lra). now rewrite !andb_false_r. }
    assert (X : x = v1).
    { destruct H as [(_ & OK)|(n & LN & -> & _)]; [|now apply TR]. exfalso. apply pos_ok_range in OK. cbn [p_dmin usual_position] in OK. rewrite Rminus_eq_0 in OK. unfold Rdiv in OK. rewrite Rmult_0_l, Rabs_R0 in OK. lra. }
    subst x. rewrite EW. cbn [bind]. rewrite usual_grid. replace (rle (0 + 175 / 1000) (1 / 10)) with false by (symmetry; apply rle_false; lra). cbn [bind fst snd].
    replace (pad_table 2 _) with [(0, 5 / 2); (17 / 100, v1); (17 / 100, v1)] by reflexivity. rewrite <- E. destruct k'. reflexivity.
  - rewrite <- V. apply nth_In. lia.
  - unfold v1. lra.
Qed.

(** Shorter than the least time between two angles: the only row is overwritten, and the initial angle is lost. *)
Theorem C38_start_refuted : exists (g : rng unit) q, fair g /\
  random_angle_over_time g (fun _ => Err EValue) (usual_angle true (1 / 100)) None tt tt 0 (1 / 100) (1 / 100) (Some 2%nat) = Ok q /\ (0 < length q)%nat /\ nth 0 q 0 <> 0.
Proof.
  exists middle, [175 / 10000; 175 / 10000]. split; [apply middle_fair|]. split; [|split; [cbn; lia|cbn; lra]].
  unfold random_angle_over_time, angle_table. cbn [usual_angle a_t_min].
  assert (R1 : table_rows (1 / 100) (5 / 100) = Ok 1%nat).
  { unfold table_rows. destruct (Req_EM_T _ _); [lra|]. rewrite (Int_part_nat (1 / 100 / (5 / 100)) 0) by (cbn [INR]; lra). reflexivity. }
  rewrite R1. cbn [bind ang_loop].
  replace (rle 0 (1 / 100)) with true by (symmetry; apply rle_true; lra). fold (usual_angle true (1 / 100)). rewrite (usual_next (1 / 100)) by lra. cbn [bind].
  rewrite usual_grid. replace (rle (0 + 175 / 1000) (1 / 100)) with false by (symmetry; apply rle_false; lra). cbn [bind fst snd].
  replace (pad_table 2 _) with [(17 / 100, 175 / 10000)] by reflexivity. rewrite read_single by (apply middle_fair || exact I). reflexivity.
Qed.

(** ** Examples *)
Example usual_angles : exists q, random_angle_over_time middle (fun _ => Err EValue) (usual_angle false (2 * PI)) (Some (5%nat, None, "linear"%string)) tt tt 1 60 (1 / 100) None = Ok q /\
  Forall (fun v => - PI <= v < PI) q /\ nth 0 q 0 = 1.
Proof.
  pose proof PI_RGT_0. pose proof PI2_1. assert (P1 : 1 < PI / 2) by lra.
  destruct (C38_angle_range middle middle_fair (fun _ => Err EValue) (usual_angle false (2 * PI)) (Some (5%nat, None, "linear"%string)) tt tt 1 60 (1 / 100) None) as (q & E & L & _ & F).
  - cbn. lra.
  - lra.
  - lra.
  - intros X. discriminate.
  - cbn. split; [lia|auto].
  - lra.
  - intros t. cbn. lra.
  - exists q. split; [exact E|]. split; [now apply F|]. apply (C38_angle_start middle middle_fair (fun _ => Err EValue) (usual_angle false (2 * PI)) (Some (5%nat, None, "linear"%string)) tt tt 1 60 (1 / 100) None q); auto.
    + cbn. lra.
    + cbn. lra.
    + intros X. discriminate.
    + cbn. split; [lia|auto].
    + lra.
    + rewrite L, query_times_length. replace (- (60 / (1 / 100))) with (IZR (-6000)) by lra.
      assert (X : Int_part (IZR (-6000)) = (-6000)%Z). { destruct (base_Int_part (IZR (-6000))) as [A B]. apply le_IZR in A. assert (IZR (-6000 - 1) < IZR (Int_part (IZR (-6000)))) as C by (rewrite minus_IZR; lra). apply lt_IZR in C. lia. }
      rewrite X. lia.
Qed.
(** Tries that go up and down in turn find an acceptable value at once or with the second try. *)
Definition turns : rng bool := mkRng (fun k _ _ => negb k) (fun _ => 1 / 2) (fun _ n => repeat (1 / 2) n) (fun k => k) (fun _ lo _ => lo) (fun _ l => l).
Definition wide_position : pos_args := mkPos (fun _ => - 3) (fun _ => 3) (fun _ => 0) (fun _ => 1) 1 (fun _ => 1) 1.
Lemma turns_fair : fair turns.
Proof.
  split.
  - intros k. cbn. lra.
  - intros k n. cbn. split; [apply repeat_length|]. apply Forall_forall. intros u Hu. apply repeat_spec in Hu. subst u. lra.
  - intros k l. cbn. reflexivity.
  - intros k lo hi H. cbn. lia.
Qed.
Example wide_positions key : search_succeeds turns wide_position (-3) 3 /\
  exists q, random_position_over_time turns wide_position None key 1 60 (1 / 100) None = Ok q /\ Forall (fun v => -3 <= v <= 3) q.
Proof.
  assert (S : search_succeeds turns wide_position (-3) 3).
  { intros t t_pre x_pre k Hx Ht. cbn [wide_position p_t_min p_t_max] in Ht. rewrite Rmax_left in Ht by lra. assert (DT : t - t_pre = 1) by lra.
    assert (U : forall k', uniform turns k' 0 1 = 1 / 2). { intros k'. unfold uniform, scaled. cbn [turns r_unif]. rewrite Rmax_right; lra. }
    assert (OK : forall x, (x = x_pre + 1 / 2 \/ x = x_pre - 1 / 2) -> -3 <= x <= 3 -> pos_ok wide_position t t_pre x_pre x = true).
    { intros x X XR. unfold pos_ok. cbv zeta. rewrite !andb_true_iff, !rle_true, !rlt_true. cbn [wide_position p_min p_max p_dmin p_dmax]. rewrite DT.
      replace (Rabs ((x - x_pre) / 1)) with (1 / 2) by (destruct X as [-> | ->]; unfold Rabs; destruct (Rcase_abs _); lra). lra. }
    assert (T0 : tried turns wide_position t t_pre x_pre k 0 = x_pre + (if negb k then 1 else -1) * (1 / 2) * 1).
    { unfold tried. cbn [Nat.iter nat_rect try_body Nat.ltb Nat.leb wide_position p_max_it fst snd p_dmin p_dmax]. rewrite U, DT. reflexivity. }
    assert (T1 : tried turns wide_position t t_pre x_pre k 1 = x_pre + (if k then 1 else -1) * (1 / 2) * 1).
    { unfold tried. cbn [Nat.iter nat_rect try_body Nat.ltb Nat.leb wide_position p_max_it fst snd p_dmin p_dmax]. rewrite U, DT. cbn [turns r_coin r_split]. now rewrite negb_involutive. }
    destruct (Rle_dec x_pre 0) as [Hn|Hn].
    - destruct k; [exists 1%nat; rewrite T1|exists 0%nat; rewrite T0]; (split; [cbn; lia|]); apply OK; cbn [negb]; lra.
    - destruct k; [exists 0%nat; rewrite T0|exists 1%nat; rewrite T1]; (split; [cbn; lia|]); apply OK; cbn [negb]; lra. }
  split; [exact S|]. destruct (C38_position_partial turns turns_fair wide_position None key 1 60 (1 / 100) None (-3) 3) as (q & E & _ & F).
  - cbn. lra.
  - lra.
  - lra.
  - exact I.
  - lra.
  - intros t. cbn. lra.
  - exact S.
  - exists q. auto.
Qed.
Print Assumptions C38_position_partial.
