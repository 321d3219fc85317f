(** * C65: random joint coordinates of a whole system. *)
From Coq Require Import Reals Lra Lia ZArith Bool String List.
From Verif Require Import Prelude M_Sys S_Sys P_Sys P_Scan M_Math P_Math P_Trig M_Geom M_Joint M_Kin P_Run S_Kin P_Joint P_Kin P_Rot C_Rot
  M_Random S_Random P_Interp P_Random C_Random M_Draw S_Draw X_Demo.
Import ListNotations.
Local Open Scope R_scope.

(** ** Placing columns side by side *)
Lemma hcat_Ok a b n : length a = n -> length b = n ->
  exists m, hcat a b = Ok m /\ length m = n /\ forall j, nth j m [] = nth j a [] ++ nth j b [].
Proof.
  intros A B. unfold hcat. rewrite A, B, Nat.eqb_refl. eexists. split; [reflexivity|]. split; [rewrite map_length, combine_length; lia|].
  intros j. change (@nil R) with ((fun r : list R * list R => fst r ++ snd r) ([], [])) at 1. rewrite map_nth, combine_nth by lia. reflexivity.
Qed.
Lemma hcats_Ok n : forall l, l <> [] -> Forall (fun a : list (list R) => length a = n) l ->
  exists m, hcats l = Ok m /\ length m = n /\ forall j, nth j m [] = concat (map (fun a => nth j a []) l).
Proof.
  induction l as [|a r IH]; intros NE F; [contradiction|]. destruct r as [|b r].
  - apply Forall_inv in F. exists a. split; [reflexivity|]. split; [exact F|]. intros j. cbn [map concat]. now rewrite app_nil_r.
  - destruct IH as (m & E & L & N); [discriminate|exact (Forall_inv_tail F)|]. apply Forall_inv in F.
    destruct (hcat_Ok a m n F L) as (m' & E' & L' & N'). exists m'. cbn [hcats] in *. rewrite E. cbn [bind]. split; [exact E'|]. split; [exact L'|].
    intros j. rewrite N'. cbn [map concat]. f_equal. now rewrite N.
Qed.
Lemma hcats_lengths : forall l m, hcats l = Ok m -> Forall (fun a : list (list R) => length a = length m) l.
Proof.
  induction l as [|a r IH]; intros m E; [discriminate|]. destruct r as [|b r].
  - injection E as <-. constructor; auto.
  - cbn [hcats] in *. apply bind_Ok in E. destruct E as (m' & E & H). unfold hcat in H. destruct (Nat.eqb_spec (length a) (length m')); [|discriminate].
    injection H as <-. rewrite map_length, combine_length, <- e, Nat.min_id. constructor; [reflexivity|]. eapply Forall_impl; [|exact (IH _ E)]. cbn beta. intros; congruence.
Qed.
Lemma hcats_unequal l i j a b : nth_error l i = Some a -> nth_error l j = Some b -> length a <> length b -> hcats l = Err EType.
Proof.
  intros A B N. assert (X : forall l : list (list (list R)), l <> [] -> (exists m, hcats l = Ok m) \/ hcats l = Err EType).
  { clear. induction l as [|a r IH]; intros NE; [contradiction|]. destruct r as [|b r]; [left; cbn; eauto|]. cbn [hcats] in *.
    destruct IH as [(m & ->)| ->]; [discriminate| |]; cbn [bind]; [|now right]. unfold hcat. destruct (_ =? _)%nat; eauto. }
  destruct (X l) as [(m & E)|E]; [intros ->; destruct i; discriminate| |exact E]. apply hcats_lengths in E. rewrite Forall_forall in E.
  exfalso. apply N. rewrite (E a), (E b); auto; eapply nth_error_In; eauto.
Qed.
Lemma as_column_nth q j : (j < length q)%nat -> nth j (as_column q) [] = [nth j q 0].
Proof. intros H. unfold as_column. rewrite (nth_indep _ [] ((fun v : R => [v]) 0)) by now rewrite map_length. exact (map_nth (fun v : R => [v]) q 0 j). Qed.
Lemma as_column_length q : length (as_column q) = length q.
Proof. apply map_length. Qed.

(** ** The draw functions *)
Section Draws.
Context {K : Type}.
Variable g : rng K.
Hypothesis FAIR : fair g.
Variable parse_float : string -> result R.
Variable c : mconfig.
Variable dt : R.
Variable N : option nat.
Variable n : nat.

(** Every sample of a drawn motion satisfies a predicate. *)
Definition gives (r : result (list R)) (Q : nat -> R -> Prop) : Prop :=
  exists q, r = Ok q /\ length q = n /\ forall j, (j < n)%nat -> Q j (nth j q 0).
Definition gives_rows (r : result (list (list R))) (Q : nat -> list R -> Prop) : Prop :=
  exists q, r = Ok q /\ length q = n /\ forall j, (j < n)%nat -> Q j (nth j q []).

Variables A E P : nat -> R -> Prop.
Variable D : nat -> xyz -> R -> Prop.
Variable C : nat -> R -> Prop.
Hypothesis HA : forall rom kt kv, gives (draw_rxyz g parse_float c kt kv dt N rom false) A.
Hypothesis HE : forall kt kv, gives (draw_rxyz g parse_float c kt kv dt N false true) E.
Hypothesis HP : forall kv, gives (draw_pxyz g c kv dt N) P.
Hypothesis HD : forall d kv, gives (draw_pos g c kv dt N false (c_p3d_min c d) (c_p3d_max c d) (c_p3d0_min c d) (c_p3d0_max c d)) (fun j => D j d).
Hypothesis HC : forall d kv, gives (draw_pos g c kv dt N true (c_p3d_min c d) (c_p3d_max c d) (c_p3d0_min c d) (c_p3d0_max c d)) C.

Lemma column r Q : gives r Q -> gives_rows (do q <- r; Ok (as_column q)) (fun j b => exists v, b = [v] /\ Q j v).
Proof.
  intros (q & -> & L & H). exists (as_column q). split; [reflexivity|]. split; [now rewrite as_column_length|].
  intros j J. rewrite as_column_nth by lia. eauto.
Qed.
Lemma columns qs : qs <> [] -> Forall (fun q => length q = n) qs ->
  exists m, hcats (map as_column qs) = Ok m /\ length m = n /\ forall j, (j < n)%nat -> nth j m [] = map (fun q => nth j q 0) qs.
Proof.
  intros NE F. destruct (hcats_Ok n (map as_column qs)) as (m & EM & L & H).
  - destruct qs; [contradiction|discriminate].
  - rewrite Forall_map. eapply Forall_impl; [|exact F]. cbn beta. intros q Hq. now rewrite as_column_length.
  - exists m. split; [exact EM|]. split; [exact L|]. intros j J. rewrite H, map_map. clear - F J.
    induction F as [|q r Hq F IH]; cbn [map concat]; [reflexivity|]. rewrite as_column_nth by lia. cbn [app]. now rewrite IH.
Qed.

Lemma ball kt kv : gives_rows (draw_spherical g parse_float c kt kv dt N) (fun j b => exists q az ay ax,
  b = q4_list q /\ qunit q /\ q = quat_euler AZ AY AX az ay ax true /\ E j az /\ E j ay /\ E j ax).
Proof.
  unfold draw_spherical. cbn [mapM].
  destruct (HE (r_split g kt 3 0) (r_split g kv 3 0)) as (q1 & -> & L1 & H1). destruct (HE (r_split g kt 3 1) (r_split g kv 3 1)) as (q2 & -> & L2 & H2).
  destruct (HE (r_split g kt 3 2) (r_split g kv 3 2)) as (q3 & -> & L3 & H3). cbn [bind].
  destruct (columns [q1; q2; q3]) as (m & -> & L & H); [discriminate|repeat constructor; auto|]. cbn [bind].
  eexists. split; [reflexivity|]. split; [now rewrite map_length|]. intros j J. set (f := fun a : list R => _).
  rewrite (nth_indep _ [] (f [])) by (rewrite map_length; lia). rewrite map_nth, H by exact J. unfold f. cbn [map getR nth].
  exists (quat_euler AZ AY AX (nth j q1 0) (nth j q2 0) (nth j q3 0) true), (nth j q1 0), (nth j q2 0), (nth j q3 0).
  repeat split; auto. apply (C26_quat_euler AZ AY AX).
Qed.
Lemma directions cor kv : gives_rows (draw_p3d_and_cor g c kv dt N cor) (fun j b => exists x y z,
  b = [x; y; z] /\ if cor then C j x /\ C j y /\ C j z else D j AX x /\ D j AY y /\ D j AZ z).
Proof.
  unfold draw_p3d_and_cor. destruct cor.
  - destruct (HC AX (r_split g kv 3 0)) as (q1 & -> & L1 & H1). destruct (HC AY (r_split g kv 3 1)) as (q2 & -> & L2 & H2). destruct (HC AZ (r_split g kv 3 2)) as (q3 & -> & L3 & H3). cbn [bind].
    destruct (columns [q1; q2; q3]) as (m & EM & L & H); [discriminate|repeat constructor; auto|]. exists m. split; [exact EM|]. split; [exact L|].
    intros j J. rewrite H by exact J. cbn [map]. exists (nth j q1 0), (nth j q2 0), (nth j q3 0). auto.
  - destruct (HD AX (r_split g kv 3 0)) as (q1 & -> & L1 & H1). destruct (HD AY (r_split g kv 3 1)) as (q2 & -> & L2 & H2). destruct (HD AZ (r_split g kv 3 2)) as (q3 & -> & L3 & H3). cbn [bind].
    destruct (columns [q1; q2; q3]) as (m & EM & L & H); [discriminate|repeat constructor; auto|]. exists m. split; [exact EM|]. split; [exact L|].
    intros j J. rewrite H by exact J. cbn [map]. exists (nth j q1 0), (nth j q2 0), (nth j q3 0). auto.
Qed.
Lemma free_rows kt kv : gives_rows (draw_free g parse_float c kt kv dt N) (fun j b => exists q az ay ax x y z,
  b = q4_list q ++ [x; y; z] /\ (qunit q /\ q = quat_euler AZ AY AX az ay ax true /\ E j az /\ E j ay /\ E j ax) /\ (D j AX x /\ D j AY y /\ D j AZ z)).
Proof.
  unfold draw_free. destruct (ball kt (r_split g kv 2 0)) as (a & -> & L1 & H1). cbn [bind]. unfold draw_p3d.
  destruct (directions false (r_split g kv 2 1)) as (b & -> & L2 & H2). cbn [bind].
  destruct (hcat_Ok a b n L1 L2) as (m & -> & L & H). exists m. split; [reflexivity|]. split; [exact L|]. intros j J. rewrite H.
  destruct (H1 j J) as (q & az & ay & ax & -> & HQ). destruct (H2 j J) as (x & y & z & -> & HX). exists q, az, ay, ax, x, y, z. auto.
Qed.

(** The rows drawn for the built-in joint types *)
Definition builtin_draw {Pm} (typ : string) : option (option (draw_fn (K := K) Pm)) := option_map Some (dget String.eqb (builtin_draws g parse_float Pm) typ).
Lemma draws_rows {Pm} typ (f : draw_fn Pm) kt kv pr : builtin_draw typ = Some (Some f) ->
  (typ = "frozen"%string -> gives_rows (draw_frozen c dt N) (fun _ b => b = [])) ->
  gives_rows (f c kt kv dt N pr) (fun j => drawn_row (A j) (E j) (P j) (D j) (C j) typ).
Proof.
  intros B FR. unfold builtin_draw in B. destruct (dget _ _ typ) as [f'|] eqn:G; [|discriminate]. injection B as ->.
  apply dget_In in G. unfold builtin_draws in G. cbn [In] in G. unfold gives_rows in *.
  repeat (destruct G as [G|G]; [injection G as <- <-|]).
  - destruct (free_rows kt kv) as (q & -> & L & H). eexists; split; [reflexivity|]; split; [exact L|]. intros j J. destruct (H j J) as (o & az & ay & ax & x & y & z & -> & (? & ? & ? & ? & ?) & ? & ? & ?). now apply (dr_free _ _ _ _ _ o az ay ax).
  - unfold draw_free_2d. destruct (HE kt (r_split g kv 2 0)) as (a & -> & L1 & H1). cbn [bind]. unfold draw_p3d.
    destruct (directions false (r_split g kv 2 1)) as (b & -> & L2 & H2). cbn [bind].
    destruct (hcat_Ok (as_column a) (map (firstn 2) b) n) as (m & -> & L & H); [now rewrite as_column_length|now rewrite map_length|].
    eexists; split; [reflexivity|]; split; [exact L|]. intros j J. rewrite H, as_column_nth by lia.
    rewrite (nth_indep (map (firstn 2) b) [] (firstn 2 [])) by (rewrite map_length; lia). rewrite map_nth. destruct (H2 j J) as (x & y & z & -> & HX & HY & _). cbn [firstn app]. apply dr_planar; auto.
  - destruct (FR eq_refl) as (q & -> & L & H). eexists; split; [reflexivity|]; split; [exact L|]. intros j J. rewrite (H j J). constructor.
  - destruct (ball kt kv) as (q & -> & L & H). eexists; split; [reflexivity|]; split; [exact L|]. intros j J. destruct (H j J) as (o & az & ay & ax & -> & ? & ? & ? & ? & ?). now apply (dr_ball _ _ _ _ _ o az ay ax).
  - destruct (directions false kv) as (q & EQ & L & H). exists q; split; [exact EQ|]; split; [exact L|]. intros j J. destruct (H j J) as (x & y & z & -> & ? & ? & ?). now constructor.
  - unfold draw_cor. destruct (free_rows kt (r_split g kv 2 0)) as (a & -> & L1 & H1). cbn [bind]. destruct (directions true (r_split g kv 2 1)) as (b & -> & L2 & H2). cbn [bind].
    destruct (hcat_Ok a b n L1 L2) as (m & -> & L & H). eexists; split; [reflexivity|]; split; [exact L|]. intros j J. rewrite H.
    destruct (H1 j J) as (o & az & ay & ax & x & y & z & -> & (? & ? & ? & ? & ?) & ? & ? & ?). destruct (H2 j J) as (cx & cy & cz & -> & ? & ? & ?).
    now apply (dr_cor _ _ _ _ _ o az ay ax).
  - destruct (column _ _ (HA true kt kv)) as (q & EQ & L & H). exists q; split; [exact EQ|]; split; [exact L|]. intros j J. destruct (H j J) as (v & -> & HV). constructor; [cbn; auto|exact HV].
  - destruct (column _ _ (HA true kt kv)) as (q & EQ & L & H). exists q; split; [exact EQ|]; split; [exact L|]. intros j J. destruct (H j J) as (v & -> & HV). constructor; [cbn; auto|exact HV].
  - destruct (column _ _ (HA true kt kv)) as (q & EQ & L & H). exists q; split; [exact EQ|]; split; [exact L|]. intros j J. destruct (H j J) as (v & -> & HV). constructor; [cbn; auto|exact HV].
  - destruct (column _ _ (HP kv)) as (q & EQ & L & H). exists q; split; [exact EQ|]; split; [exact L|]. intros j J. destruct (H j J) as (v & -> & HV). constructor; [cbn; auto|exact HV].
  - destruct (column _ _ (HP kv)) as (q & EQ & L & H). exists q; split; [exact EQ|]; split; [exact L|]. intros j J. destruct (H j J) as (v & -> & HV). constructor; [cbn; auto|exact HV].
  - destruct (column _ _ (HP kv)) as (q & EQ & L & H). exists q; split; [exact EQ|]; split; [exact L|]. intros j J. destruct (H j J) as (v & -> & HV). constructor; [cbn; auto|exact HV].
  - unfold draw_saddle. cbn [mapM]. destruct (HA false (r_split g kt 2 0) (r_split g kv 2 0)) as (q1 & -> & L1 & H1). destruct (HA false (r_split g kt 2 1) (r_split g kv 2 1)) as (q2 & -> & L2 & H2). cbn [bind].
    destruct (columns [q1; q2]) as (m & EM & L & H); [discriminate|repeat constructor; auto|]. exists m. split; [exact EM|]. split; [exact L|].
    intros j J. rewrite H by exact J. cbn [map]. constructor; auto.
  - destruct G.
Qed.
End Draws.

(** ** Number of samples *)
Lemma Int_part_unique x (z : Z) : IZR z <= x < IZR z + 1 -> Int_part x = z.
Proof.
  intros H. destruct (base_Int_part x) as [A B]. assert (IZR (Int_part x) < IZR z + 1) by lra. assert (IZR z < IZR (Int_part x) + 1) by lra.
  rewrite <- plus_IZR in *. apply lt_IZR in H0. apply lt_IZR in H1. lia.
Qed.
Lemma samples_query N typ T dt n : samples N typ T dt n -> typ <> "frozen"%string -> length (query_times N T dt) = n.
Proof.
  intros S NF. rewrite query_times_length. destruct N as [m|]; cbn [samples] in S; [auto|]. apply String.eqb_neq in NF. rewrite NF in S.
  rewrite (Int_part_unique _ (- Z.of_nat n)); [lia|]. rewrite opp_IZR, <- INR_IZR_INZ. lra.
Qed.
Lemma frozen_samples c N dt n : 0 < dt -> 0 <= c_T c -> samples N "frozen" (c_T c) dt n -> gives_rows n (draw_frozen c dt N) (fun _ b => b = []).
Proof.
  intros HT T0 S. unfold draw_frozen. exists (repeat [] n).
  assert (X : match N with Some n => Ok n | None => if Req_EM_T dt 0 then Err EZeroDiv else if Rlt_dec (c_T c / dt) 0 then Err EValue else Ok (Z.to_nat (Int_part (c_T c / dt))) end = Ok n).
  { destruct N as [m|]; cbn [samples] in S; [now subst|]. cbn in S. destruct (Req_EM_T dt 0); [lra|].
    destruct (Rlt_dec (c_T c / dt) 0) as [L|L]. { exfalso. pose proof (pos_INR n). lra. }
    rewrite (Int_part_unique _ (Z.of_nat n)); [now rewrite Nat2Z.id|]. rewrite <- INR_IZR_INZ. lra. }
  rewrite X. cbn [bind]. split; [reflexivity|]. split; [apply repeat_length|]. intros j J. apply nth_repeat.
Qed.

(** ** What C38 says about the draws of a sensible configuration *)
Section Config.
Context {K : Type}.
Variable g : rng K.
Hypothesis FAIR : fair g.
Variable parse_float : string -> result R.
Variable c : mconfig.
Hypothesis OK : config_ok parse_float c.
Variable dt : R.
Hypothesis DT : 0 < dt.
Variable N : option nat.
Notation n := (length (query_times N (c_T c) dt)).

Lemma uniform_in k lo hi : lo <= hi -> lo <= uniform g k lo hi <= hi.
Proof. intros H. pose proof (uniform_ge g k lo hi). pose proof (uniform_le g FAIR k lo hi). rewrite Rmax_right in H1 by exact H. lra. Qed.
Lemma angle_drawn rom fs kt kv : gives n (draw_rxyz g parse_float c kt kv dt N rom fs) (angle_at c dt).
Proof.
  unfold draw_rxyz. cbv zeta. set (a := mkAng _ _ _ _ _ _ _ _ _ _). set (rnd := if c_rnd_angle c then _ else _).
  set (u := uniform g (r_split g kv 2 1) (c_ang0_min c) (c_ang0_max c)). pose proof (wrap_range u) as WR.
  assert (M : method_ok parse_float a). { unfold method_ok, a. cbn [a_rom a_method]. destruct rom; [apply (co_method _ _ OK)|discriminate]. }
  assert (RD : reads_ok rnd). { unfold rnd. destruct (c_rnd_angle c) eqn:X; [now apply (co_angle _ _ OK)|exact I]. }
  destruct (C38_angle_range g FAIR parse_float a rnd kt (r_split g kv 2 0) (wrap_to_pi u) (c_T c) dt N) as (q & E & L & F & _); auto; try lra.
  - apply (co_t_min _ _ OK).
  - apply (co_T _ _ OK).
  - apply (co_halfsize _ _ OK).
  - exists q. split; [exact E|]. split; [exact L|]. intros j J. split.
    + rewrite Forall_forall in F. apply F, nth_In. lia.
    + intros -> S. exists u. split; [apply uniform_in, (co_ang0 _ _ OK)|].
      apply (C38_angle_start g FAIR parse_float a rnd kt (r_split g kv 2 0) (wrap_to_pi u) (c_T c) dt N q); auto; [cbn [a a_t_min]; lra|cbn [a a_t_min]; lra|lia].
Qed.
Lemma position_drawn cor pmin pmax p0min p0max kv : p0min <= p0max ->
  gives n (draw_pos g c kv dt N cor pmin pmax p0min p0max)
    (pos_at (if cor then c_cor_t_min c else c_t_min c) (if cor then c_cor_pos0_min c else p0min) (if cor then c_cor_pos0_max c else p0max) (c_T c) dt).
Proof.
  intros P0. unfold draw_pos. cbv zeta. set (a := mkPos _ _ _ _ _ _ _). set (rnd := if c_rnd_pos c then _ else _). set (u := uniform g _ _ _).
  assert (RD : reads_ok rnd). { unfold rnd. destruct (c_rnd_pos c) eqn:X; [now apply (co_pos _ _ OK)|exact I]. }
  destruct (C38_position_total g FAIR a rnd (r_split g kv 2 0) u (c_T c) dt N) as (q & E & L & H); auto.
  - cbn [a p_t_min]. destruct cor; [apply (co_cor_t_min _ _ OK)|apply (co_t_min _ _ OK)].
  - apply (co_T _ _ OK).
  - exists q. split; [exact E|]. split; [exact L|]. intros j J -> S. rewrite H; [|exact S|lia].
    unfold u. apply uniform_in. destruct cor; [apply (co_cor0 _ _ OK)|exact P0].
Qed.

(** The rows of one joint *)
Lemma builtin_rows {Pm} typ (f : draw_fn Pm) kt kv pr m : builtin_draw g parse_float typ = Some (Some f) -> samples N typ (c_T c) dt m ->
  gives_rows m (f c kt kv dt N pr) (fun j => row_at c dt j typ).
Proof.
  intros B S. destruct (string_dec typ "frozen") as [->|NF].
  - vm_compute in B. injection B as <-. destruct (frozen_samples c N dt m DT (co_T _ _ OK) S) as (q & EQ & L & H). exists q. split; [exact EQ|]. split; [exact L|].
    intros j J. rewrite (H j J). constructor.
  - rewrite <- (samples_query _ _ _ _ _ S NF). unfold row_at.
    apply (draws_rows g parse_float c dt N n (angle_at c dt) (angle_at c dt)
      (pos_at (c_t_min c) (c_pos0_min c) (c_pos0_max c) (c_T c) dt) (fun j d => pos_at (c_t_min c) (c_p3d0_min c d) (c_p3d0_max c d) (c_T c) dt j)
      (pos_at (c_cor_t_min c) (c_cor_pos0_min c) (c_cor_pos0_max c) (c_T c) dt)); auto.
    + intros. apply angle_drawn.
    + intros. apply angle_drawn.
    + intros. apply (position_drawn false), (co_pos0 _ _ OK).
    + intros. apply (position_drawn false), (co_p3d0 _ _ OK).
    + intros. apply (position_drawn true), (co_p3d0 _ _ OK).
    + intros ->. contradiction.
Qed.
End Config.

(** ** All joints of a system *)
Section System.
Context {K P O : Type}.
Variable g : rng K.
Variable W : widths.
Variable draws : string -> option (option (draw_fn (K := K) P)).
Variable overwrite : string -> option (mconfig -> mconfig).
Notation rsys := (System R (plink (params P)) geometry O).
Notation draw := (draw_random_q g W draws overwrite).

Notation drawn_for := (drawn_for g draws overwrite).
Lemma run_draws (f : option K -> idx_map -> list (piece (arg P)) -> list (list (list R)) -> result (K * list (list (list R)))) im row key G :
  (forall y i st, f y im (row i) st = do v <- G (match y with None => key | Some k => k end) i; Ok (r_split g (match y with None => key | Some k => k end) 3 0, st ++ [v])) ->
  forall k a y st, match y with None => key | Some k => k end = key_of g key a ->
  run f im y st (map row (seq a k)) = do vs <- mapM (fun i => G (key_of g key i) i) (seq a k); Ok (map (fun i => key_of g key (S i)) (seq a k), st ++ vs).
Proof.
  intros F. induction k as [|k IH]; intros a y st Y; cbn [seq map run mapM bind].
  - now rewrite app_nil_r.
  - rewrite F, Y. destruct (G (key_of g key a) a) as [v|e]; cbn [bind fst snd]; [|reflexivity].
    rewrite (IH (S a)) by reflexivity. destruct (mapM _ (seq (S a) k)) as [vs|e]; cbn [bind fst snd]; [|reflexivity]. now rewrite <- app_assoc.
Qed.

(** Drawing is drawing for every link with its own keys; the columns are placed side by side. *)
Lemma draw_each (s : rsys) key c N : wf W s -> num_links s <> 0%nat ->
  draw key s c N = do vs <- mapM (drawn_for key s c N) (seq 0 (num_links s)); do q <- hcats vs; Ok (key_of g key (num_links s), q).
Proof.
  intros WF NZ. destruct (wf_arrays _ _ WF) as (qs & ds & Hq & Hd & _). pose proof (wf_types _ _ WF) as HT. pose proof (wf_links _ _ WF) as HL.
  destruct (links s) as [|l0 ls] eqn:EL. { exfalso. apply NZ. unfold num_links. now rewrite <- HL. }
  rewrite <- EL in *. assert (HT' : length (link_types s) = num_links s) by (unfold num_links; exact HT).
  unfold draw_random_q.
  rewrite (scan_run W s qs ds HT' Hq Hd _ _ _ [col AStr (link_types s) EmptyString; col ALink (links s) l0] false); [|reflexivity|].
  2: { cbn [combine]. constructor; [cbn [fst snd]; apply arg_ok_col; exact HT'|]. constructor; [cbn [fst snd]; apply arg_ok_col; exact HL|constructor]. }
  cbv zeta. cbn [map].
  rewrite (run_draws _ _ (fun i => [col AStr (link_types s) EmptyString i; col ALink (links s) l0 i]) key
    (fun k i => do pr <- limit_scope (nth i (link_types s) EmptyString) (pl_params (nth i (links s) l0));
      do f <- match draws (nth i (link_types s) EmptyString) with None => Err EAssertion | Some None => Err EOther | Some (Some f) => Ok f end;
      f (config_for overwrite c (nth i (link_types s) EmptyString)) (r_split g k 3 1) (r_split g k 3 2) (sys_dt s) N pr)).
  - replace (mapM _ (seq 0 (num_links s))) with (mapM (drawn_for key s c N) (seq 0 (num_links s))).
    + destruct (mapM (drawn_for key s c N) _) as [vs|e]; cbn [bind fst snd app]; [|reflexivity].
      replace (num_links s) with (S (num_links s - 1)) at 1 by lia. rewrite seq_S, map_app, rev_app_distr. cbn [map rev app bind plus].
      destruct (hcats vs); cbn [bind]; [|reflexivity]. do 3 f_equal. lia.
    + assert (X : forall l, (forall i, In i l -> (i < num_links s)%nat) -> mapM (drawn_for key s c N) l = mapM (fun i => do pr <- limit_scope (nth i (link_types s) EmptyString) (pl_params (nth i (links s) l0));
      do f <- match draws (nth i (link_types s) EmptyString) with None => Err EAssertion | Some None => Err EOther | Some (Some f) => Ok f end;
      f (config_for overwrite c (nth i (link_types s) EmptyString)) (r_split g (key_of g key i) 3 1) (r_split g (key_of g key i) 3 2) (sys_dt s) N pr) l).
      { induction l as [|i l IH]; intros HI; [reflexivity|]. cbn [mapM]. rewrite IH by (intros; apply HI; now right). specialize (HI i (or_introl eq_refl)).
        unfold drawn_for at 1. rewrite nth_error_nth' with (d := EmptyString) by (rewrite HT'; exact HI). rewrite nth_error_nth' with (d := l0) by (unfold num_links in HI; rewrite HL; exact HI). reflexivity. }
      apply X. intros i Hi. apply in_seq in Hi. lia.
  - intros y i st. unfold draw_q, col. unfold config_for. destruct (limit_scope _ _) as [pr|e]; cbn [bind]; [|reflexivity].
    destruct (draws _) as [[f|]|]; cbn [bind]; reflexivity.
  - reflexivity.
Qed.

(** Drawing succeeds exactly if it does for every link with the link's own keys, and all have the same number of
    samples; the key handed back is the next one, and a row consists of the links' rows. *)
Theorem C65_each (s : rsys) key c N key' q : wf W s -> num_links s <> 0%nat ->
  (draw key s c N = Ok (key', q) <->
   key' = key_of g key (num_links s) /\ exists vs, length vs = num_links s /\
     (forall i, (i < num_links s)%nat -> drawn_for key s c N i = Ok (nth i vs []) /\ length (nth i vs []) = length q) /\
     forall j, nth j q [] = concat (map (fun v => nth j v []) vs)).
Proof.
  intros WF NZ. rewrite (draw_each s key c N WF NZ).
  assert (HC : forall vs m, hcats vs = Ok m -> vs <> [] -> forall j, nth j m [] = concat (map (fun v => nth j v []) vs)).
  { intros vs m H NE. destruct (hcats_Ok (length m) vs NE (hcats_lengths _ _ H)) as (m' & E & _ & X). rewrite H in E. injection E as <-. exact X. }
  split.
  - intros E. apply bind_Ok in E. destruct E as (vs & V & E). apply bind_Ok in E. destruct E as (m & H & E). injection E as <- <-. split; [reflexivity|].
    assert (L : length vs = num_links s). { apply mapM_Ok_length in V. rewrite seq_length in V. exact V. }
    exists vs. split; [exact L|]. split; [|apply HC; [exact H|intros ->; cbn in L; lia]].
    pose proof (hcats_lengths _ _ H) as HL. rewrite Forall_forall in HL.
    intros i Hi. split; [|apply HL, nth_In; lia].
    assert (SI : nth_error (seq 0 (num_links s)) i = Some i) by (rewrite nth_error_nth' with (d := 0%nat) by (rewrite seq_length; lia); now rewrite seq_nth by lia).
    destruct (Prelude.mapM_nth _ _ _ _ _ V SI) as (b & Hb & E). now rewrite (nth_error_nth _ _ [] Hb).
  - intros (-> & vs & L & HV & HQ).
    assert (V : mapM (drawn_for key s c N) (seq 0 (num_links s)) = Ok vs).
    { rewrite (mapM_all_Ok _ (fun i => nth i vs [])); [|intros i Hi; apply in_seq in Hi; apply HV; lia]. f_equal.
      rewrite <- L. apply nth_ext with (d := nth 0 vs []) (d' := []); [now rewrite map_length, seq_length|]. intros k Hk. rewrite map_length, seq_length in Hk.
      rewrite (map_nth (fun i => nth i vs [])), seq_nth by exact Hk. reflexivity. }
    rewrite V. cbn [bind]. destruct (hcats_Ok (length q) vs) as (m & EM & LM & HM).
    + intros ->. cbn in L. lia.
    + apply Forall_forall. intros v Hv. destruct (In_nth _ _ [] Hv) as (i & Hi & <-). apply HV. lia.
    + rewrite EM. cbn [bind]. do 2 f_equal. apply nth_ext with (d := []) (d' := []); [exact LM|]. intros j _. now rewrite HM, HQ.
Qed.

(** Links added at the end change nothing for those before them. *)
Theorem C65_prefix (s s' : rsys) ts ls key c N k q k' q' : wf W s -> wf W s' -> num_links s <> 0%nat ->
  link_types s' = link_types s ++ ts -> links s' = links s ++ ls -> sys_dt s' = sys_dt s ->
  draw key s c N = Ok (k, q) -> draw key s' c N = Ok (k', q') ->
  length q' = length q /\ forall j, exists more, nth j q' [] = nth j q [] ++ more.
Proof.
  intros WF WF' NZ ET EL ED E E'.
  assert (LT : num_links s' = (num_links s + length ts)%nat).
  { unfold num_links. rewrite <- (wf_types _ _ WF), <- (wf_types _ _ WF'), ET, app_length. reflexivity. }
  apply C65_each in E; auto. destruct E as (_ & vs & L & HV & HQ). apply C65_each in E'; [|auto|lia]. destruct E' as (_ & vs' & L' & HV' & HQ').
  assert (SAME : forall i, (i < num_links s)%nat -> nth i vs' [] = nth i vs []).
  { intros i Hi. destruct (HV i Hi) as [A _]. destruct (HV' i ltac:(lia)) as [B _]. unfold S_Draw.drawn_for in A, B.
    rewrite ET, EL, ED in B. rewrite !nth_error_app1 in B by (rewrite ?(wf_types _ _ WF), ?(wf_links _ _ WF); exact Hi).
    rewrite A in B. now injection B as <-. }
  split.
  - destruct (HV 0%nat) as [_ A]; [lia|]. destruct (HV' 0%nat) as [_ B]; [lia|]. rewrite SAME in B by lia. lia.
  - assert (PRE : vs' = vs ++ skipn (num_links s) vs').
    { rewrite <- (firstn_skipn (num_links s) vs') at 1. f_equal. apply nth_ext with (d := []) (d' := []); [rewrite firstn_length; lia|].
      intros i Hi. rewrite firstn_length in Hi. rewrite <- SAME by lia. rewrite <- (firstn_skipn (num_links s) vs') at 2. rewrite app_nth1 by (rewrite firstn_length; lia). reflexivity. }
    intros j. exists (concat (map (fun v => nth j v []) (skipn (num_links s) vs'))). rewrite HQ', HQ, PRE at 1. now rewrite map_app, concat_app.
Qed.

(** A joint type that is not registered or has no way of drawing makes drawing fail; so does a system without links. *)
Theorem C65_refused (s : rsys) key c N : wf W s ->
  (num_links s = 0%nat \/ exists typ, In typ (link_types s) /\ (draws typ = None \/ draws typ = Some None)) -> exists e, draw key s c N = Err e.
Proof.
  intros WF H. destruct (draw key s c N) as [[k q]|e] eqn:E; [exfalso|eauto]. destruct (Nat.eq_dec (num_links s) 0) as [Z|NZ].
  - unfold draw_random_q in E. destruct (wf_arrays _ _ WF) as (qs & ds & Hq & Hd & _). pose proof (wf_types _ _ WF) as HT. pose proof (wf_links _ _ WF) as HL.
    unfold num_links in Z. rewrite Z in HT, HL. apply length_zero_iff_nil in HT, HL. rewrite HT, HL in E. unfold scan, num_links in E. rewrite Z in E. cbn in E.
    apply bind_Ok in E. destruct E as (r & X & E). do 3 (apply bind_Ok in X; destruct X as (? & _ & X)). cbn in X.
    repeat match type of X with Ok _ = Ok _ => injection X as <- end. cbn in E. discriminate.
  - destruct H as [H|(typ & I & H)]; [contradiction|]. apply C65_each in E; auto. destruct E as (_ & vs & _ & HV & _).
    destruct (In_nth_error _ _ I) as (i & Hi). assert (Li : (i < num_links s)%nat). { unfold num_links. rewrite <- (wf_types _ _ WF). apply nth_error_Some. now rewrite Hi. }
    destruct (HV i Li) as [D _]. unfold S_Draw.drawn_for in D. rewrite Hi in D. destruct (nth_error (links s) i); [|discriminate].
    apply bind_Ok in D. destruct D as (pr & _ & D). destruct H as [-> | ->] in D; discriminate.
Qed.
End System.

(** ** The built-in joint types *)
Section Builtin.
Context {K P O : Type}.
Variable g : rng K.
Hypothesis FAIR : fair g.
Variable parse_float : string -> result R.
Variable overwrite : string -> option (mconfig -> mconfig).
Notation rsys := (System R (plink (params P)) geometry O).
Notation draw := (draw_random_q g builtin_widths (builtin_draw g parse_float (Pm := P)) overwrite).

(** Every link has parameters for its joint type or default ones. *)
Definition has_params (s : rsys) : Prop := forall i typ l, nth_error (link_types s) i = Some typ -> nth_error (links s) i = Some l -> exists pr, params_for typ (pl_params l) pr.

Lemma row_width A E Q D C typ b : drawn_row A E Q D C typ b -> qW builtin_widths typ = Some (length b).
Proof.
  intros H. inversion H as [t ? I| |t ? I| | | | | |]; subst; try reflexivity; cbn [In] in I; repeat (destruct I as [<-|I]; [reflexivity|]); destruct I.
Qed.
Lemma builtin_drawn typ w : qW builtin_widths typ = Some w -> exists f, builtin_draw g parse_float (Pm := P) typ = Some (Some f).
Proof.
  unfold builtin_draw. cbn [qW builtin_widths]. intros H. apply dget_In in H. unfold builtin_Q in H. cbn [In] in H.
  repeat (destruct H as [H|H]; [injection H as <- _; eexists; reflexivity|]). destruct H.
Qed.

(** If the rows of every joint satisfy a predicate, so do those of the system. *)
Lemma assembled (s : rsys) key c N n (Q : nat -> string -> list R -> Prop) : wf builtin_widths s -> num_links s <> 0%nat -> has_params s ->
  (forall j typ b, Q j typ b -> qW builtin_widths typ = Some (length b)) ->
  (forall typ f kt kv pr, In typ (link_types s) -> builtin_draw g parse_float (Pm := P) typ = Some (Some f) ->
     gives_rows n (f (config_for overwrite c typ) kt kv (sys_dt s) N pr) (fun j => Q j typ)) ->
  exists q, draw key s c N = Ok (key_of g key (num_links s), q) /\ length q = n /\
    forall j, (j < n)%nat -> q_size builtin_widths s = Ok (length (nth j q [])) /\ exists bs, nth j q [] = concat bs /\ Forall2 (Q j) (link_types s) bs.
Proof.
  intros WF NZ HP QW H. pose proof (wf_types _ _ WF) as HT. pose proof (wf_links _ _ WF) as HL. destruct (wf_arrays _ _ WF) as (qs & ds & Hq & _).
  rewrite (draw_each g builtin_widths _ overwrite s key c N WF NZ).
  assert (X : forall i typ, nth_error (link_types s) i = Some typ -> exists v, drawn_for g (builtin_draw g parse_float (Pm := P)) overwrite key s c N i = Ok v /\ length v = n /\ forall j, (j < n)%nat -> Q j typ (nth j v [])).
  { intros i typ Hi. assert (Li : (i < length (links s))%nat). { rewrite HL, <- HT. apply nth_error_Some. now rewrite Hi. }
    unfold drawn_for. rewrite Hi. apply nth_error_Some in Li. destruct (nth_error (links s) i) as [l|] eqn:El; [|contradiction]. clear Li.
    destruct (HP i typ l Hi El) as (pr & PR). apply limit_scope_spec in PR. rewrite PR. cbn [bind].
    destruct (Forall2_nth_l _ _ _ _ _ Hq Hi) as (w & _ & Hw). destruct (builtin_drawn typ w Hw) as (f & Ef). rewrite Ef. cbn [bind].
    destruct (H typ f (r_split g (key_of g key i) 3 1) (r_split g (key_of g key i) 3 2) pr (nth_error_In _ _ Hi) Ef) as (v & Ev & Lv & Hv).
    rewrite Ev. eauto. }
  destruct (mapM_exists (drawn_for g (builtin_draw g parse_float (Pm := P)) overwrite key s c N) (seq 0 (num_links s))) as (vs & V).
  { intros i Hi. apply in_seq in Hi. destruct (nth_error (link_types s) i) as [typ|] eqn:Et.
    - destruct (X i typ Et) as (v & Ev & _). eauto.
    - apply nth_error_None in Et. unfold num_links in Hi. lia. }
  assert (L : length vs = num_links s). { apply mapM_Ok_length in V. rewrite seq_length in V. exact V. }
  assert (Y : forall i typ, nth_error (link_types s) i = Some typ -> exists v, nth_error vs i = Some v /\ length v = n /\ forall j, (j < n)%nat -> Q j typ (nth j v [])).
  { intros i typ Hi. destruct (X i typ Hi) as (v & Ev & Lv & Hv). assert (Li : (i < num_links s)%nat). { unfold num_links. rewrite <- HT. apply nth_error_Some. now rewrite Hi. }
    assert (SI : nth_error (seq 0 (num_links s)) i = Some i) by (rewrite nth_error_nth' with (d := 0%nat) by (rewrite seq_length; lia); now rewrite seq_nth by lia).
    destruct (Prelude.mapM_nth _ _ _ _ _ V SI) as (b & Hb & E). rewrite Ev in E. injection E as <-. eauto. }
  rewrite V. cbn [bind]. assert (LT : length vs = length (link_types s)) by (unfold num_links in L; lia).
  destruct (hcats_Ok n vs) as (m & EM & LM & HM).
  - intros ->. cbn in L. lia.
  - apply Forall_forall. intros v Hv. destruct (In_nth_error _ _ Hv) as (i & Hi). destruct (nth_error (link_types s) i) as [typ|] eqn:Et.
    + destruct (Y i typ Et) as (v' & Hv' & Lv & _). rewrite Hi in Hv'. now injection Hv' as <-.
    + apply nth_error_None in Et. assert (i < length vs)%nat by (apply nth_error_Some; now rewrite Hi). lia.
  - rewrite EM. cbn [bind]. exists m. split; [reflexivity|]. split; [exact LM|]. intros j J.
    assert (F : Forall2 (Q j) (link_types s) (map (fun v => nth j v []) vs)).
    { clear - Y LT J. revert vs Y LT. induction (link_types s) as [|t ts IH]; intros [|v vs] Y LT; cbn [length map] in *; try discriminate; constructor.
      - destruct (Y 0%nat t eq_refl) as (v' & Hv' & _ & HQ). injection Hv' as <-. auto.
      - apply IH; [|lia]. intros i typ Hi. exact (Y (S i) typ Hi). }
    rewrite HM. split; [|eauto]. unfold q_size. apply total_width_Ok. exists (map (@length R) (map (fun v => nth j v []) vs)). split.
    + clear - F QW. unfold have_widths. induction F; cbn [map]; constructor; eauto.
    + clear. induction (map _ vs) as [|b r IH]; cbn [concat map list_sum fold_right]; [reflexivity|]. rewrite app_length. unfold list_sum in IH. now rewrite IH.
Qed.

(** Drawing succeeds for every sensible configuration; all rows are coordinate vectors of the system: the links' parts
    in order, with unit quaternions and wrapped angles, starting in the configured ranges. *)
Theorem C65_valid (s : rsys) key c N n : wf builtin_widths s -> num_links s <> 0%nat -> has_params s -> 0 < sys_dt s ->
  (forall typ, In typ (link_types s) -> config_ok parse_float (config_for overwrite c typ) /\ samples N typ (c_T (config_for overwrite c typ)) (sys_dt s) n) ->
  exists q, draw key s c N = Ok (key_of g key (num_links s), q) /\ length q = n /\
    forall j, (j < n)%nat -> q_size builtin_widths s = Ok (length (nth j q [])) /\ exists bs, nth j q [] = concat bs /\
      Forall2 (fun typ => row_at (config_for overwrite c typ) (sys_dt s) j typ) (link_types s) bs.
Proof.
  intros WF NZ HP DT HC. apply (assembled s key c N n (fun j typ => row_at (config_for overwrite c typ) (sys_dt s) j typ)); auto.
  - intros j typ b. apply row_width.
  - intros typ f kt kv pr I B. destruct (HC typ I) as [OK S]. now apply (builtin_rows g FAIR parse_float).
Qed.

(** Positions stay in their ranges as long as the search for the next position succeeds (see C38). *)
Theorem C65_ranges_partial (s : rsys) key c N n plo phi dlo dhi clo chi : wf builtin_widths s -> num_links s <> 0%nat -> has_params s -> 0 < sys_dt s ->
  (forall typ, In typ (link_types s) -> let c' := config_for overwrite c typ in config_ok parse_float c' /\ samples N typ (c_T c') (sys_dt s) n /\
    (plo typ <= c_pos0_min c' /\ c_pos0_max c' <= phi typ /\ (forall t, plo typ <= c_pos_min c' t /\ c_pos_max c' t <= phi typ) /\ search_succeeds g (slider_args c') (plo typ) (phi typ)) /\
    (forall d, dlo typ d <= c_p3d0_min c' d /\ c_p3d0_max c' d <= dhi typ d /\ (forall t, dlo typ d <= c_p3d_min c' d t /\ c_p3d_max c' d t <= dhi typ d) /\ search_succeeds g (direction_args c' d) (dlo typ d) (dhi typ d)) /\
    (clo typ <= c_cor_pos0_min c' /\ c_cor_pos0_max c' <= chi typ /\ (forall t, clo typ <= c_cor_pos_min c' t /\ c_cor_pos_max c' t <= chi typ) /\ search_succeeds g (centre_args c') (clo typ) (chi typ))) ->
  exists q, draw key s c N = Ok (key_of g key (num_links s), q) /\ length q = n /\
    forall j, (j < n)%nat -> exists bs, nth j q [] = concat bs /\
      Forall2 (fun typ => in_ranges (plo typ) (phi typ) (dlo typ) (dhi typ) (clo typ) (chi typ) typ) (link_types s) bs.
Proof.
  intros WF NZ HP DT HC.
  destruct (assembled s key c N n (fun j typ => in_ranges (plo typ) (phi typ) (dlo typ) (dhi typ) (clo typ) (chi typ) typ) WF NZ HP) as (q & E & L & H).
  - intros j typ b. apply row_width.
  - intros typ f kt kv pr I B. destruct (HC typ I) as (OK & S & (P1 & P2 & P3 & P4) & HD & (C1 & C2 & C3 & C4)). cbv zeta in *. set (c' := config_for overwrite c typ) in *. clearbody c'.
    destruct (string_dec typ "frozen") as [->|NF].
    { vm_compute in B. injection B as <-. destruct (frozen_samples c' N (sys_dt s) n DT (co_T _ _ OK) S) as (q & EQ & L & H). exists q. split; [exact EQ|]. split; [exact L|].
      intros j J. rewrite (H j J). constructor. }
    rewrite <- (samples_query _ _ _ _ _ S NF). unfold in_ranges.
    assert (PD : forall (cor : bool) (pmin pmax : R -> R) (p0min p0max : R) (kv : K) (lo hi : R), p0min <= p0max -> lo <= (if cor then c_cor_pos0_min c' else p0min) -> (if cor then c_cor_pos0_max c' else p0max) <= hi ->
       (forall t, lo <= (if cor then c_cor_pos_min c' else pmin) t /\ (if cor then c_cor_pos_max c' else pmax) t <= hi) ->
       search_succeeds g (if cor then centre_args c' else mkPos pmin pmax (c_dpos_min c') (c_dpos_max c') (c_t_min c') (c_t_max c') 100) lo hi ->
       gives (length (query_times N (c_T c') (sys_dt s))) (draw_pos g c' kv (sys_dt s) N cor pmin pmax p0min p0max) (fun _ v => lo <= v <= hi)).
    { intros cor pmin pmax p0min p0max kv' lo hi P0 LO HI LIM SS. unfold draw_pos. cbv zeta. set (a := mkPos _ _ _ _ _ _ _). set (rnd := if c_rnd_pos c' then _ else _). set (u := uniform g _ _ _).
      assert (RD : reads_ok rnd). { unfold rnd. destruct (c_rnd_pos c') eqn:X; [now apply (co_pos _ _ OK)|exact Logic.I]. }
      destruct (C38_position_partial g FAIR a rnd (r_split g kv' 2 0) u (c_T c') (sys_dt s) N lo hi) as (q & E & L & F); auto.
      - cbn [a p_t_min]. destruct cor; [apply (co_cor_t_min _ _ OK)|apply (co_t_min _ _ OK)].
      - apply (co_T _ _ OK).
      - assert (UI := uniform_in g FAIR (r_split g kv' 2 1) (if cor then c_cor_pos0_min c' else p0min) (if cor then c_cor_pos0_max c' else p0max)).
        unfold u. destruct cor; [specialize (UI (co_cor0 _ _ OK))|specialize (UI P0)]; lra.
      - unfold a. destruct cor; exact SS.
      - exists q. split; [exact E|]. split; [exact L|]. intros j J. rewrite Forall_forall in F. apply F, nth_In. lia. }
    apply (draws_rows g parse_float c' (sys_dt s) N _ (fun _ _ => True) (fun _ _ => True) (fun _ v => plo typ <= v <= phi typ) (fun _ d v => dlo typ d <= v <= dhi typ d) (fun _ v => clo typ <= v <= chi typ)); auto.
    + intros rom kt' kv'. destruct (angle_drawn g FAIR parse_float c' OK (sys_dt s) DT N rom false kt' kv') as (q & E & L & _). exists q. auto.
    + intros kt' kv'. destruct (angle_drawn g FAIR parse_float c' OK (sys_dt s) DT N false true kt' kv') as (q & E & L & _). exists q. auto.
    + intros kv'. apply PD; auto. apply (co_pos0 _ _ OK).
    + intros d kv'. destruct (HD d) as (D1 & D2 & D3 & D4). apply PD; auto. apply (co_p3d0 _ _ OK).
    + intros d kv'. apply PD; auto. apply (co_p3d0 _ _ OK).
    + intros ->. contradiction.
  - exists q. split; [exact E|]. split; [exact L|]. intros j J. now apply H.
Qed.

(** Joints with different numbers of samples cannot be put together. *)
Theorem C65_unequal (s : rsys) key c N (n : string -> nat) t1 t2 : wf builtin_widths s -> has_params s -> 0 < sys_dt s ->
  (forall typ, In typ (link_types s) -> config_ok parse_float (config_for overwrite c typ) /\ samples N typ (c_T (config_for overwrite c typ)) (sys_dt s) (n typ)) ->
  In t1 (link_types s) -> In t2 (link_types s) -> n t1 <> n t2 -> draw key s c N = Err EType.
Proof.
  intros WF HP DT HC I1 I2 NE. pose proof (wf_types _ _ WF) as HT. pose proof (wf_links _ _ WF) as HL. destruct (wf_arrays _ _ WF) as (qs & ds & Hq & _).
  assert (NZ : num_links s <> 0%nat). { unfold num_links. rewrite <- HT. destruct (link_types s); [destruct I1|discriminate]. }
  rewrite (draw_each g builtin_widths _ overwrite s key c N WF NZ).
  assert (X : forall i typ, nth_error (link_types s) i = Some typ -> exists v, drawn_for g (builtin_draw g parse_float (Pm := P)) overwrite key s c N i = Ok v /\ length v = n typ).
  { intros i typ Hi. assert (Li : (i < length (links s))%nat). { rewrite HL, <- HT. apply nth_error_Some. now rewrite Hi. }
    unfold drawn_for. rewrite Hi. apply nth_error_Some in Li. destruct (nth_error (links s) i) as [l|] eqn:El; [|contradiction]. clear Li.
    destruct (HP i typ l Hi El) as (pr & PR). apply limit_scope_spec in PR. rewrite PR. cbn [bind].
    destruct (Forall2_nth_l _ _ _ _ _ Hq Hi) as (w & _ & Hw). destruct (builtin_drawn typ w Hw) as (f & Ef). rewrite Ef. cbn [bind].
    destruct (HC typ (nth_error_In _ _ Hi)) as [OK S].
    destruct (builtin_rows g FAIR parse_float (config_for overwrite c typ) OK (sys_dt s) DT N typ f (r_split g (key_of g key i) 3 1) (r_split g (key_of g key i) 3 2) pr (n typ) Ef S) as (v & Ev & Lv & _).
    rewrite Ev. eauto. }
  destruct (mapM_exists (drawn_for g (builtin_draw g parse_float (Pm := P)) overwrite key s c N) (seq 0 (num_links s))) as (vs & V).
  { intros i Hi. apply in_seq in Hi. destruct (nth_error (link_types s) i) as [typ|] eqn:Et.
    - destruct (X i typ Et) as (v & Ev & _). eauto.
    - apply nth_error_None in Et. unfold num_links in Hi. lia. }
  assert (Y : forall i typ, nth_error (link_types s) i = Some typ -> exists v, nth_error vs i = Some v /\ length v = n typ).
  { intros i typ Hi. destruct (X i typ Hi) as (v & Ev & Lv). assert (Li : (i < num_links s)%nat). { unfold num_links. rewrite <- HT. apply nth_error_Some. now rewrite Hi. }
    assert (SI : nth_error (seq 0 (num_links s)) i = Some i) by (rewrite nth_error_nth' with (d := 0%nat) by (rewrite seq_length; lia); now rewrite seq_nth by lia).
    destruct (Prelude.mapM_nth _ _ _ _ _ V SI) as (b & Hb & E). rewrite Ev in E. injection E as <-. eauto. }
  rewrite V. cbn [bind]. destruct (In_nth_error _ _ I1) as (i1 & H1). destruct (In_nth_error _ _ I2) as (i2 & H2).
  destruct (Y i1 t1 H1) as (v1 & V1 & L1). destruct (Y i2 t2 H2) as (v2 & V2 & L2).
  rewrite (hcats_unequal vs i1 i2 v1 v2 V1 V2) by congruence. reflexivity.
Qed.
End Builtin.

(** ** Refuted, and examples *)
(** The default configuration (jcalc.py 20-93), with the given length of the motion and initial positions *)
Definition usual_config (T : R) (p3d0 : xyz -> R) : mconfig :=
  mkMC T (5 / 100) (fun _ => 30 / 100) (fun _ => 1 / 10) (fun _ => 3) (fun _ => 1 / 10) (fun _ => 3)
    (fun _ => 0) (fun _ => 2 * PI) (fun _ => 0) (fun _ => 2 * PI) (fun _ => 1 / 1000) (fun _ => 7 / 10) (fun _ => - (5 / 2)) (fun _ => 5 / 2)
    (fun _ _ => - (5 / 2)) (fun _ _ => 5 / 2) 5 None false false "cosine" true "uniform" (fun _ => 2 * PI)
    (- PI) PI 0 0 p3d0 p3d0 (2 / 10) (fun _ => 2) (fun _ => 1 / 100000) (fun _ => 1 / 2) (fun _ => - (4 / 10)) (fun _ => 4 / 10) 0 0.
Lemma usual_config_ok pf T p : 0 <= T -> config_ok pf (usual_config T p).
Proof.
  intros H. pose proof PI_RGT_0. split; unfold usual_config; cbn [c_T c_t_min c_cor_t_min c_halfsize c_rom c_rom_method c_rnd_angle c_rnd_pos c_ang0_min c_ang0_max c_pos0_min c_pos0_max c_p3d0_min c_p3d0_max c_cor_pos0_min c_cor_pos0_max]; try lra; try discriminate.
  - intros; lra.
  - intros _. eexists. reflexivity.
  - intros; lra.
Qed.
Lemma demo_params : has_params demo.
Proof. intros i typ l A B. now destruct (demo_known i typ l A B). Qed.

(** One minute of motion of the demo system with the default configuration *)
Example demo_minute : exists q, draw_random_q middle builtin_widths (builtin_draw middle (fun _ => Err EValue)) (fun _ => None) tt demo (usual_config 60 (fun _ => 0)) None = Ok (tt, q) /\
  length q = (60 * 100)%nat /\ length (nth 0 q []) = 13%nat.
Proof.
  destruct (C65_valid middle middle_fair (fun _ => Err EValue) (fun _ => None) demo tt (usual_config 60 (fun _ => 0)) None (60 * 100)) as (q & E & L & H).
  - apply demo_wf.
  - discriminate.
  - apply demo_params.
  - cbn. lra.
  - intros typ I. split; [apply usual_config_ok; lra|]. cbn [demo link_types In] in I. unfold config_for. cbn [usual_config c_T demo sys_dt].
    assert (NF : String.eqb typ "frozen" = false) by (destruct I as [<-|[<-|[<-|[<-|[]]]]]; reflexivity). unfold samples. rewrite NF, mult_INR.
    replace (INR 60) with 60 by (cbn [INR]; lra). replace (INR 100) with 100 by (cbn [INR]; lra). split; lra.
  - exists q. split; [exact E|]. split; [exact L|]. destruct (H 0%nat ltac:(lia)) as [X _].
    change (q_size builtin_widths demo) with (Ok 13%nat : result nat) in X. now injection X as <-.
Qed.

Definition two_links (t1 t2 : string) : System R (plink (params unit)) geometry unit :=
  mkSys [-1; 0]%Z [demo_link vzero qone []; demo_link vzero qone []] [t1; t2] [0] [0] [0] [0] 1 [] [0; 0; 981 / 100] "semi_implicit_euler" 0 ["a"; "b"]%string None [tt; tt].
(** Without a given number of samples, a frozen joint makes drawing fail if the motion is not a multiple of the time step. *)
Theorem C65_frozen_refuted : exists (s : System R (plink (params unit)) geometry unit) c, wf builtin_widths s /\ has_params s /\ 0 < sys_dt s /\
  link_types s = ["rx"; "frozen"]%string /\ config_ok (fun _ => Err EValue) c /\ sys_dt s <= c_T c /\
  forall K (g : rng K) key, fair g -> draw_random_q g builtin_widths (builtin_draw g (fun _ => Err EValue)) (fun _ => None) key s c None = Err EType.
Proof.
  exists (two_links "rx" "frozen"), (usual_config (3 / 2) (fun _ => 0)).
  assert (WF : wf builtin_widths (two_links "rx" "frozen")).
  { constructor; try reflexivity.
    - repeat constructor; cbn [In]; intuition discriminate.
    - unfold two_links, topo. cbn [link_parents]. intros [|[|i]] p H; cbn in H; try (injection H as <-; lia). destruct i; discriminate.
    - constructor.
    - exists [1; 0]%nat, [1; 0]%nat. unfold have_widths. cbn [two_links link_types].
      split; [repeat apply Forall2_cons; try reflexivity; apply Forall2_nil|]. split; [repeat apply Forall2_cons; try reflexivity; apply Forall2_nil|]. repeat split. }
  assert (HP : has_params (two_links "rx" "frozen")).
  { intros [|[|i]] typ l A B; cbn in A, B; [injection A as <-; injection B as <-..|destruct i; discriminate]; exists tt; right; split; reflexivity. }
  split; [exact WF|]. split; [exact HP|]. split; [cbn; lra|]. split; [reflexivity|]. split; [apply usual_config_ok; lra|]. split; [cbn; lra|].
  intros K g key F.
  apply (C65_unequal g F (fun _ => Err EValue) (fun _ => None) _ key _ None (fun t => if String.eqb t "frozen" then 1%nat else 2%nat) "rx" "frozen"); auto.
  - cbn. lra.
  - intros typ I. split; [apply usual_config_ok; lra|]. cbn [two_links link_types In] in I. unfold config_for. cbn [usual_config c_T two_links sys_dt].
    destruct I as [<-|[<-|[]]]; cbn; lra.
  - cbn. auto.
  - cbn. auto.
  - cbn. discriminate.
Qed.

Definition planar : System R (plink (params unit)) geometry unit :=
  mkSys [-1]%Z [demo_link vzero qone []] ["free_2d"]%string [0; 0; 0] [0; 0; 0] [0; 0; 0] [0; 0; 0] (1 / 100) [] [0; 0; 981 / 100] "semi_implicit_euler" 0 ["a"]%string None [tt].
(** A planar joint moves along y and z, but its positions are drawn from the ranges of x and y: here it starts at y = 2
    although y has to start at 0, and 2 is the initial position configured for x. *)
Theorem C65_planar_refuted : exists (s : System R (plink (params unit)) geometry unit) c q, wf builtin_widths s /\ link_types s = ["free_2d"]%string /\
  config_ok (fun _ => Err EValue) c /\ sys_dt s <= c_t_min c <= c_T c /\
  draw_random_q middle builtin_widths (builtin_draw middle (fun _ => Err EValue)) (fun _ => None) tt s c (Some 10%nat) = Ok (tt, q) /\
  c_p3d0_min c AY = 0 /\ c_p3d0_max c AY = 0 /\ vy (t_pos (free_2d_transform (P := unit) (nth 0 q []) tt)) = 2.
Proof.
  set (c := usual_config 60 (fun d => match d with AX => 2 | _ => 0 end)).
  assert (WF : wf builtin_widths planar).
  { constructor; try reflexivity.
    - repeat constructor; cbn [In]; intuition discriminate.
    - unfold planar, topo. cbn [link_parents]. intros [|i] p H; cbn in H; try (injection H as <-; lia). destruct i; discriminate.
    - constructor.
    - exists [3]%nat, [3]%nat. unfold have_widths. cbn [planar link_types].
      split; [repeat apply Forall2_cons; try reflexivity; apply Forall2_nil|]. split; [repeat apply Forall2_cons; try reflexivity; apply Forall2_nil|]. repeat split. }
  destruct (C65_valid middle middle_fair (fun _ => Err EValue) (fun _ => None) planar tt c (Some 10%nat) 10) as (q & E & L & H); auto.
  - discriminate.
  - intros [|i] typ l A B; cbn in A, B; [injection A as <-; injection B as <-|destruct i; discriminate]. exists tt; right; split; reflexivity.
  - cbn. lra.
  - intros typ I. split; [apply usual_config_ok; lra|]. reflexivity.
  - exists planar, c, q. split; [exact WF|]. split; [reflexivity|]. split; [apply usual_config_ok; lra|]. split; [cbn; lra|]. split; [exact E|]. split; [reflexivity|]. split; [reflexivity|].
    destruct (H 0%nat ltac:(lia)) as (_ & bs & -> & F). inversion F as [|t b ts bs' HR F' E1 E2]; subst. inversion F'; subst. unfold row_at in HR.
    inversion HR as [t ? I| |t ? I| | | | | |a y z HA HY HZ]; subst.
    { cbn [In] in I. repeat (destruct I as [I|I]; [discriminate I|]). destruct I. }
    { cbn [In] in I. repeat (destruct I as [I|I]; [discriminate I|]). destruct I. }
    specialize (HY eq_refl ltac:(cbn; lra)). cbn in HY. cbn. lra.
Qed.
