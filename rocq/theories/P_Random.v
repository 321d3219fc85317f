(** * Random trajectories: the loops terminate, and what the tables of times and values contain. *)
From Coq Require Import Reals Lra Lia ZArith Bool String List Permutation.
From Verif Require Import Prelude M_Math P_Math P_Trig M_Random S_Random P_Interp.
Import ListNotations.
Local Open Scope R_scope.

(** ** Loops *)
Lemma iter_r {A} (f : A -> A) : forall n x, Nat.iter (S n) f x = Nat.iter n f (f x).
Proof. induction n as [|n IH]; intros x; [reflexivity|]. change (f (Nat.iter (S n) f x) = f (Nat.iter n f (f x))). now rewrite IH. Qed.
Lemma while_iter {A} (cond : A -> bool) (body : A -> A) : forall fuel x y, while fuel cond body x = Ok y ->
  exists n, y = Nat.iter n body x /\ (forall m, (m < n)%nat -> cond (Nat.iter m body x) = true) /\ cond y = false.
Proof.
  induction fuel as [|k IH]; intros x y E; cbn [while] in E; destruct (cond x) eqn:C; try discriminate.
  - injection E as <-. exists 0%nat. cbn. split; [reflexivity|]. split; [intros; lia|exact C].
  - destruct (IH _ _ E) as (n & -> & B & D). exists (S n). rewrite iter_r. split; [reflexivity|]. split; [|exact D].
    intros [|m] Hm; [exact C|]. rewrite iter_r. apply B. lia.
  - injection E as <-. exists 0%nat. cbn. split; [reflexivity|]. split; [intros; lia|exact C].
Qed.
Lemma while_total {A} (cond : A -> bool) (body : A -> A) (P : A -> Prop) (mu : A -> nat) :
  (forall x, P x -> cond x = true -> P (body x) /\ (mu (body x) < mu x)%nat) ->
  forall fuel x, P x -> (mu x <= fuel)%nat -> exists y, while fuel cond body x = Ok y /\ P y /\ cond y = false.
Proof.
  intros H. induction fuel as [|k IH]; intros x Px M; cbn [while]; destruct (cond x) eqn:C; try now (exists x).
  - destruct (H x Px C). lia.
  - destruct (H x Px C) as [Q1 Q2]. apply IH; [exact Q1|lia].
Qed.

Lemma on_grid_le Ts a b : 0 < Ts -> a <= b -> on_grid Ts a <= on_grid Ts b.
Proof.
  intros T H. unfold on_grid. apply Rmult_le_compat_r; [lra|]. apply IZR_le.
  assert (Q : a / Ts <= b / Ts) by (apply Rmult_le_compat_r; [left; now apply Rinv_0_lt_compat|exact H]).
  destruct (base_Int_part (a / Ts)) as [A1 A2]. destruct (base_Int_part (b / Ts)) as [B1 B2].
  assert (X : IZR (Int_part (a / Ts)) < IZR (Int_part (b / Ts) + 1)) by (rewrite plus_IZR; lra). apply lt_IZR in X. lia.
Qed.
Lemma on_grid_nonneg Ts a : 0 < Ts -> 0 <= a -> 0 <= on_grid Ts a.
Proof.
  intros T H. replace 0 with (on_grid Ts 0); [now apply on_grid_le|]. unfold on_grid, Rdiv. rewrite Rmult_0_l.
  rewrite (Int_part_nat 0 0) by (cbn [INR]; lra). cbn. ring.
Qed.
(** A time is at most one sampling interval behind its grid time. *)
Lemma on_grid_near Ts a : 0 < Ts -> on_grid Ts a <= a < on_grid Ts a + Ts.
Proof.
  intros T. unfold on_grid. destruct (base_Int_part (a / Ts)) as [A B]. replace a with (a / Ts * Ts) at 2 3 by (field; lra). nra.
Qed.
Lemma on_grid_ge Ts a : 0 < Ts -> Ts <= a -> Ts <= on_grid Ts a.
Proof.
  intros T H. replace Ts with (on_grid Ts Ts) at 1; [now apply on_grid_le|]. unfold on_grid. replace (Ts / Ts) with 1 by (field; lra).
  rewrite (Int_part_nat 1 1) by (cbn [INR]; lra). cbn. ring.
Qed.

(** ** Tables *)
Lemma put_row_length i r l : (0 < length l)%nat -> length (put_row i r l) = length l.
Proof. intros H. unfold put_row. rewrite app_length, firstn_length. cbn [length]. rewrite skipn_length. lia. Qed.
Lemma put_row_nth i r l j d : (0 < length l)%nat -> nth j (put_row i r l) d = if (j =? Nat.min i (length l - 1))%nat then r else nth j l d.
Proof.
  intros H. unfold put_row. set (m := Nat.min i (length l - 1)). assert (M : (m < length l)%nat) by (unfold m; lia).
  destruct (Nat.eqb_spec j m) as [->|N].
  - rewrite app_nth2; rewrite firstn_length, Nat.min_l by lia; [|lia]. now rewrite Nat.sub_diag.
  - destruct (Nat.lt_ge_cases j m) as [L|L].
    + rewrite app_nth1 by (rewrite firstn_length; lia). rewrite <- (firstn_skipn m l) at 2. now rewrite app_nth1 by (rewrite firstn_length; lia).
    + rewrite app_nth2; rewrite firstn_length, Nat.min_l by lia; [|lia]. replace (j - m)%nat with (S (j - S m)) by lia. cbn [nth].
      rewrite <- (firstn_skipn (S m) l) at 2. rewrite app_nth2; rewrite firstn_length, Nat.min_l by lia; [reflexivity|lia].
Qed.
Lemma pad_table_length fin l : length (pad_table fin l) = length l.
Proof. unfold pad_table. rewrite map_length, combine_length, seq_length. lia. Qed.
Lemma pad_table_nth fin l j : (j < length l)%nat ->
  nth j (pad_table fin l) (0, 0) = nth (if (j <? fin)%nat then j else Nat.min (fin - 1) (length l - 1)) l (0, 0).
Proof.
  intros H. unfold pad_table. set (f := fun jr : nat * (R * R) => _).
  rewrite (nth_indep _ (0, 0) (f (0%nat, (0, 0)))) by (rewrite map_length, combine_length, seq_length; lia).
  rewrite map_nth, combine_nth by apply seq_length. rewrite seq_nth by exact H. unfold f. cbn [fst snd]. now destruct (_ <? _)%nat.
Qed.

Section Table.
Variables (t_min Ts : R) (rows : nat) (v0 : R) (P : R -> Prop).
Hypothesis TMIN : 0 < t_min.
Hypothesis TS : 0 < Ts.
Hypothesis ROWS : (0 < rows)%nat.

(** After the row with index [i - 1], at time [t]. *)
Record tab_inv (i : nat) (t : R) (tab : list (R * R)) : Prop := {
  ti_len : length tab = rows;
  ti_i : (1 <= i)%nat;
  ti_t : INR (i - 1) * t_min <= t;
  ti_val : forall j, (j < Nat.min i rows)%nat -> P (snd (nth j tab (0, 0))) /\ 0 <= fst (nth j tab (0, 0)) <= on_grid Ts t;
  ti_asc : forall j k, (j <= k < Nat.min i rows)%nat -> fst (nth j tab (0, 0)) <= fst (nth k tab (0, 0));
  ti_first : (2 <= rows)%nat \/ i = 1%nat -> nth 0 tab (0, 0) = (0, v0);
  ti_later : forall j, (1 <= j < Nat.min i rows)%nat -> on_grid Ts t_min <= fst (nth j tab (0, 0))
}.

Lemma tab_start : P v0 -> tab_inv 1 0 (first_table rows v0).
Proof.
  intros H. assert (L : length (repeat (0, 0) rows) = rows) by apply repeat_length.
  assert (N0 : nth 0 (first_table rows v0) (0, 0) = (0, v0)) by (unfold first_table; rewrite put_row_nth by lia; reflexivity).
  split.
  - unfold first_table. rewrite put_row_length; lia.
  - lia.
  - cbn. lra.
  - intros j Hj. assert (j = 0)%nat as -> by lia. rewrite N0. cbn [fst snd]. split; [exact H|]. split; [lra|]. apply on_grid_nonneg; lra.
  - intros j k Hjk. assert (j = 0)%nat as -> by lia. assert (k = 0)%nat as -> by lia. lra.
  - intros _. exact N0.
  - intros j Hj. lia.
Qed.
Lemma tab_step i t tab t' v : tab_inv i t tab -> t + t_min <= t' -> P v -> tab_inv (S i) t' (put_row i (on_grid Ts t', v) tab).
Proof.
  intros [A1 A2 A3 A4 A5 A6 A7] H Pv. assert (T0 : 0 <= t). { pose proof (pos_INR (i - 1)). nra. }
  assert (L : (0 < length tab)%nat) by lia.
  assert (G : on_grid Ts t <= on_grid Ts t') by (apply on_grid_le; lra).
  assert (G0 : 0 <= on_grid Ts t') by (apply on_grid_nonneg; lra).
  set (m := Nat.min i (length tab - 1)).
  assert (OLD : forall j, (j < Nat.min (S i) rows)%nat -> j <> m -> (j < Nat.min i rows)%nat /\ (j < m)%nat) by (intros j Hj N; unfold m in *; lia).
  split.
  - rewrite put_row_length; lia.
  - lia.
  - replace (S i - 1)%nat with (S (i - 1)) by lia. rewrite S_INR. lra.
  - intros j Hj. rewrite put_row_nth by exact L. fold m. destruct (Nat.eqb_spec j m); cbn [fst snd]; [split; [exact Pv|lra]|].
    destruct (OLD j Hj n) as [Hj1 _]. destruct (A4 j Hj1) as [B1 B2]. split; [exact B1|]. lra.
  - intros j k Hjk. rewrite !put_row_nth by exact L. fold m. destruct (Nat.eqb_spec j m), (Nat.eqb_spec k m); cbn [fst snd].
    + lra.
    + destruct (OLD k ltac:(lia) n). lia.
    + destruct (OLD j ltac:(lia) n) as [Hj1 _]. destruct (A4 j Hj1) as [_ B2]. lra.
    + destruct (OLD j ltac:(lia) n) as [Hj1 _]. destruct (OLD k ltac:(lia) n0) as [Hk1 _]. apply A5. lia.
  - intros [X|X]; [|lia]. rewrite put_row_nth by exact L. fold m. destruct (Nat.eqb_spec 0 m); [unfold m in *; lia|]. apply A6. now left.
  - intros j Hj. rewrite put_row_nth by exact L. fold m. destruct (Nat.eqb_spec j m); cbn [fst]; [apply on_grid_le; lra|].
    destruct (OLD j ltac:(lia) n) as [Hj1 _]. apply A7. lia.
Qed.

Record table_ok (tab : list (R * R)) : Prop := {
  to_len : length tab = rows;
  to_val : Forall P (map snd tab);
  to_asc : ascending (map fst tab);
  to_time : forall j, (j < rows)%nat -> 0 <= fst (nth j tab (0, 0));
  to_first : (2 <= rows)%nat -> nth 0 tab (0, 0) = (0, v0);
  to_later : (2 <= rows)%nat -> forall j, (1 <= j < rows)%nat -> on_grid Ts t_min <= fst (nth j tab (0, 0))
}.
Lemma nth_fst (l : list (R * R)) j : nth j (map fst l) 0 = fst (nth j l (0, 0)).
Proof. change 0 with (fst (0, 0)) at 1. apply map_nth. Qed.
Lemma nth_snd (l : list (R * R)) j : nth j (map snd l) 0 = snd (nth j l (0, 0)).
Proof. change 0 with (snd (0, 0)) at 1. apply map_nth. Qed.
Lemma tab_done fin t tab : tab_inv fin t tab -> (2 <= fin)%nat -> table_ok (pad_table fin tab).
Proof.
  intros [A1 A2 A3 A4 A5 A6 A7] F.
  set (ix := fun j => if (j <? fin)%nat then j else Nat.min (fin - 1) (length tab - 1)).
  assert (N : forall j, (j < rows)%nat -> nth j (pad_table fin tab) (0, 0) = nth (ix j) tab (0, 0)) by (intros; apply pad_table_nth; lia).
  assert (I : forall j, (j < rows)%nat -> (ix j < Nat.min fin rows)%nat).
  { intros j Hj. unfold ix. destruct (Nat.ltb_spec j fin); lia. }
  split.
  - now rewrite pad_table_length.
  - apply Forall_forall. intros v Hv. apply In_nth with (d := 0) in Hv. destruct Hv as (j & Hj & <-).
    rewrite map_length, pad_table_length, A1 in Hj. rewrite nth_snd, N by exact Hj. apply A4, I, Hj.
  - intros j k. rewrite map_length, pad_table_length, A1. intros Hjk. rewrite !nth_fst, !N by lia. apply A5. specialize (I k ltac:(lia)).
    unfold ix in *. destruct (Nat.ltb_spec j fin), (Nat.ltb_spec k fin); lia.
  - intros j Hj. rewrite N by exact Hj. apply A4, I, Hj.
  - intros R2. rewrite N by lia. unfold ix. destruct (Nat.ltb_spec 0 fin); [|lia]. apply A6. now left.
  - intros R2 j Hj. rewrite N by lia. apply A7. specialize (I j ltac:(lia)). unfold ix in *. destruct (Nat.ltb_spec j fin); lia.
Qed.
End Table.

Lemma table_rows_Ok T t_min : 0 < t_min -> 0 <= T ->
  exists rows, table_rows T t_min = Ok rows /\ (0 < rows)%nat /\ INR rows - 1 <= T / t_min < INR rows.
Proof.
  intros P H. unfold table_rows. destruct (Req_EM_T t_min 0); [lra|].
  destruct (Int_part_nonneg (T / t_min)) as (k & E & B). { apply Rmult_le_pos; [exact H|left; now apply Rinv_0_lt_compat]. }
  rewrite E. destruct (Z.leb_spec (Z.of_nat k + 1) 0); [lia|]. eexists. split; [reflexivity|]. replace (Z.to_nat (Z.of_nat k + 1)) with (S k) by lia.
  rewrite S_INR. split; [lia|]. lra.
Qed.
Lemma query_times_length N T Ts : length (query_times N T Ts) = match N with Some n => n | None => Z.to_nat (- Int_part (- (T / Ts))) end.
Proof. unfold query_times. now rewrite map_length, seq_length. Qed.
Lemma query_times_nth N T Ts j : (j < length (query_times N T Ts))%nat -> nth j (query_times N T Ts) 0 = INR j * Ts.
Proof.
  intros H. rewrite query_times_length in H. unfold query_times. set (f := fun j : nat => _). rewrite (nth_indep _ 0 (f 0%nat)) by now rewrite map_length, seq_length.
  rewrite map_nth. unfold f. now rewrite seq_nth.
Qed.

(** Randomised interpolation is configured sensibly. *)
Definition reads_ok (rnd : option (nat * option nat * string)) : Prop :=
  match rnd with
  | None => True
  | Some (bmin, bmax, method) =>
      (0 < match bmax with None => bmin | Some m => m end)%nat /\ (match bmax with None => True | Some m => bmin <= m end)%nat /\
      (method = "cosine"%string \/ method = "linear"%string)
  end.

Section Draws.
Context {K : Type}.
Variable g : rng K.
Hypothesis FAIR : fair g.
Variable parse_float : string -> result R.

Lemma read_table_Ok rnd (tab : list (R * R)) key ts : reads_ok rnd -> ascending (map fst tab) -> (0 < length tab)%nat ->
  exists f, read_table g rnd tab key ts = Ok (map f ts) /\ interpolates (map fst tab) (map snd tab) f.
Proof.
  intros R A L. unfold read_table. destruct rnd as [[[bmin bmax] method]|].
  - destruct R as (R1 & R2 & R3). destruct (interpolate_blend g FAIR bmin bmax method (map fst tab) (map snd tab) key R1 R2 R3) as (f & w & E & W & Q).
    rewrite E. cbn [bind]. exists f. split; [reflexivity|].
    destruct (blend_interpolates w (map fst tab) (map snd tab) W A) as [B1 B2 B3 B4 B5]; try (rewrite !map_length; lia).
    split; intros; rewrite ?Q; auto. destruct (B4 k v) as (x & Hx & Hv); auto. exists x. now rewrite Q.
  - exists (cosInterpolate (map fst tab) (map snd tab)). split; [reflexivity|].
    destruct (blend_interpolates (fun _ => cos_weight) (map fst tab) (map snd tab)) as [B1 B2 B3 B4 B5]; try (rewrite !map_length; lia); auto using cos_ramp.
    split; intros; rewrite ?cosInterpolate_blend; auto. destruct (B4 k v) as (x & Hx & Hv); auto. exists x. now rewrite cosInterpolate_blend.
Qed.

(** A table with one row is read as a constant. *)
Lemma read_single rnd (r : R * R) key ts : reads_ok rnd -> read_table g rnd [r] key ts = Ok (map (fun _ => snd r) ts).
Proof.
  intros R. assert (X : forall w x, blend w (map fst [r]) (map snd [r]) x = snd r).
  { intros w x. assert (S1 : segment (map fst [r]) x = 0%Z) by (unfold segment; cbn [map length]; lia). unfold blend. rewrite S1.
    cbn [map]. unfold at_. cbn. destruct (Req_EM_T _ _); [|lra]. now destruct (rlt _ _). }
  unfold read_table. destruct rnd as [[[bmin bmax] method]|].
  - destruct R as (R1 & R2 & R3). destruct (interpolate_blend g FAIR bmin bmax method (map fst [r]) (map snd [r]) key R1 R2 R3) as (f & w & E & W & Q).
    rewrite E. cbn [bind]. f_equal. apply map_ext. intros x. now rewrite Q, X.
  - f_equal. apply map_ext. intros x. now rewrite cosInterpolate_blend, X.
Qed.

(** All that is read from a table lies in an interval if the table's values do. *)
Lemma read_in rnd t_min Ts rows v0 tab key lo hi N T : reads_ok rnd -> 0 < Ts -> (0 < rows)%nat ->
  table_ok t_min Ts rows v0 (fun v => lo <= v <= hi) tab ->
  exists q, read_table g rnd tab key (query_times N T Ts) = Ok q /\ length q = length (query_times N T Ts) /\ Forall (fun v => lo <= v <= hi) q.
Proof.
  intros R HT HR [A1 A2 A3 A4 A5 A6]. destruct (Nat.eq_dec rows 1) as [->|N1].
  - destruct tab as [|r [|]]; cbn [length] in A1; try lia. rewrite read_single by exact R. eexists. split; [reflexivity|]. split; [apply map_length|].
    apply Forall_forall. intros v Hv. apply in_map_iff in Hv. destruct Hv as (_ & <- & _). inversion A2. auto.
  - destruct (read_table_Ok rnd tab key (query_times N T Ts) R A3 ltac:(lia)) as (f & E & I). rewrite E. eexists. split; [reflexivity|]. split; [apply map_length|].
    apply Forall_forall. intros v Hv. apply in_map_iff in Hv. destruct Hv as (x & <- & Hx).
    apply (interpolates_in (map fst tab) (map snd tab)); auto; rewrite ?map_length; try lia.
    rewrite nth_fst, A5 by lia. cbn [fst]. apply In_nth with (d := 0) in Hx. destruct Hx as (j & Hj & <-). rewrite query_times_nth by exact Hj.
    pose proof (pos_INR j). nra.
Qed.
(** The first value is the initial one if the first time of a drawn value is after the first sample. *)
Lemma read_first rnd t_min Ts rows v0 P tab key N T q : reads_ok rnd -> 0 < Ts <= t_min -> (2 <= rows)%nat -> table_ok t_min Ts rows v0 P tab ->
  read_table g rnd tab key (query_times N T Ts) = Ok q -> (0 < length q)%nat -> nth 0 q 0 = v0.
Proof.
  intros R HT HR [A1 A2 A3 A4 A5 A6] E L. destruct (read_table_Ok rnd tab key (query_times N T Ts) R A3 ltac:(lia)) as (f & E' & I).
  rewrite E in E'. injection E' as ->. rewrite map_length in L.
  rewrite (nth_indep _ 0 (f 0)) by now rewrite map_length. rewrite map_nth, query_times_nth by exact L. cbn [INR]. rewrite Rmult_0_l.
  assert (T0 : nth 0 (map fst tab) 0 = 0) by (rewrite nth_fst, A5 by exact HR; reflexivity).
  assert (V0 : nth 0 (map snd tab) 0 = v0) by (rewrite nth_snd, A5 by exact HR; reflexivity).
  rewrite <- V0. rewrite <- T0 at 1. apply (ip_knot _ _ _ I); [rewrite map_length; lia|].
  intros j Hj. rewrite map_length in Hj. rewrite T0, nth_fst. specialize (A6 HR j ltac:(lia)). pose proof (on_grid_ge Ts t_min ltac:(lra) ltac:(lra)). lra.
Qed.

(** ** Angles *)
Lemma uniform_ge k lo hi : lo <= uniform g k lo hi.
Proof. apply scaled_ge. Qed.
Lemma uniform_le k lo hi : uniform g k lo hi <= Rmax lo hi.
Proof. apply scaled_le, FAIR. Qed.

Lemma clip_in x : - PI <= clip_to_pi x <= PI.
Proof. pose proof PI_pos. unfold clip_to_pi, Rmin, Rmax. destruct (Rle_dec _ _), (Rle_dec _ _); lra. Qed.

Section Resolve.
Variables (a : angle_args) (prob : R -> R) (ANG_0 t prev : R).
Hypothesis PROB : prob_up parse_float (if a_rom a then a_method a else "coinflip"%string) = Ok prob.
(** The candidates, one after the other *)
Definition candidate (key_t key_ang : K) (j : nat) : R * R :=
  let '(_, _, dt, phi, _) := Nat.iter (S j) (rom_body g a (prob prev) ANG_0 t prev) (key_t, key_ang, 1, prev, 0%nat) in (dt, phi).

Lemma iter_count : forall n v, snd (Nat.iter n (rom_body g a (prob prev) ANG_0 t prev) v) = (n + snd v)%nat.
Proof.
  induction n as [|n IH]; intros v; [reflexivity|]. rewrite iter_r, IH. destruct v as [[[[kt ka] dt] phi] i]. cbn. lia.
Qed.

Lemma resolve_candidate key_t key_ang : exists n, (n <= a_max_iter a)%nat /\
  resolve_range_of_motion g parse_float a ANG_0 t prev key_t key_ang = Ok (candidate key_t key_ang n) /\
  (forall m, (m < n)%nat -> angle_ok a t prev (fst (candidate key_t key_ang m)) (snd (candidate key_t key_ang m)) = false) /\
  (n = a_max_iter a \/ angle_ok a t prev (fst (candidate key_t key_ang n)) (snd (candidate key_t key_ang n)) = true).
Proof.
  unfold resolve_range_of_motion. rewrite PROB. cbn [bind].
  destruct (while_total (rom_cond a t prev) (rom_body g a (prob prev) ANG_0 t prev) (fun _ => True) (fun v => S (S (a_max_iter a)) - snd v)%nat) with (fuel := S (S (a_max_iter a))) (x := (key_t, key_ang, 1, prev, 0%nat)) as (y & E & _ & _).
  - intros [[[[kt ka] dt] phi] i] _ C. split; [exact I|]. cbn [rom_body snd]. unfold rom_cond in C. destruct (i =? 0)%nat eqn:Ni; [apply Nat.eqb_eq in Ni; lia|].
    cbn [orb] in C. apply negb_true_iff, orb_false_iff in C. destruct C as [_ C]. apply Nat.ltb_ge in C. lia.
  - exact I.
  - cbn [snd]. lia.
  - rewrite E. cbn [bind]. destruct (while_iter _ _ _ _ _ E) as (n & -> & B & D). destruct n as [|n]; [cbn in D; discriminate|].
    exists n.
    assert (CAND : forall m, exists kt ka, Nat.iter (S m) (rom_body g a (prob prev) ANG_0 t prev) (key_t, key_ang, 1, prev, 0%nat) =
       (kt, ka, fst (candidate key_t key_ang m), snd (candidate key_t key_ang m), S m)).
    { intros m. pose proof (iter_count (S m) (key_t, key_ang, 1, prev, 0%nat)) as Z. unfold candidate.
      destruct (Nat.iter (S m) _ _) as [[[[kt ka] dt] phi] i]. cbn [snd] in Z. exists kt, ka. cbn [fst snd]. f_equal. lia. }
    assert (NEG : forall m, (m < n)%nat -> angle_ok a t prev (fst (candidate key_t key_ang m)) (snd (candidate key_t key_ang m)) = false /\ (S m <= a_max_iter a)%nat).
    { intros m Hm. specialize (B (S m) ltac:(lia)). destruct (CAND m) as (kt & ka & Em). rewrite Em in B. unfold rom_cond in B.
      cbn [Nat.eqb orb] in B. apply negb_true_iff, orb_false_iff in B. destruct B as [B1 B2]. apply Nat.ltb_ge in B2. auto. }
    split; [|split; [|split]].
    + destruct n as [|n]; [lia|]. apply (NEG n). lia.
    + unfold candidate. destruct (Nat.iter (S n) _ _) as [[[[kt ka] dt] phi] i]. reflexivity.
    + intros m Hm. apply NEG, Hm.
    + destruct (CAND n) as (kt & ka & En). rewrite En in D. unfold rom_cond in D. cbn [Nat.eqb orb] in D. apply negb_false_iff, orb_true_iff in D.
      destruct D as [D|D]; [now right|]. apply Nat.ltb_lt in D. left. destruct n as [|n]; [lia|]. specialize (NEG n ltac:(lia)). lia.
Qed.

(** Any property of all candidates holds of the result. *)
Lemma candidate_form key_t key_ang j : exists kt ka, let h := a_halfsize a t in
  let dt := uniform g kt (a_t_min a) (a_t_max a t) in
  candidate key_t key_ang j = (dt, next_phi g (a_rom a) (prob prev) (ANG_0 - h) (ANG_0 + h) (a_dang_min a t) (a_dang_max a t) prev ka dt).
Proof.
  unfold candidate. cbn [Nat.iter nat_rect]. change (nat_rect _ _ (fun _ => rom_body g a (prob prev) ANG_0 t prev) j) with (Nat.iter j (rom_body g a (prob prev) ANG_0 t prev) (key_t, key_ang, 1, prev, 0%nat)).
  destruct (Nat.iter j _ _) as [[[[kt ka] dt] phi] i]. cbn [rom_body]. eexists _, _. reflexivity.
Qed.
End Resolve.

Lemma prob_up_Ok (a : angle_args) : (a_rom a = true -> exists p, prob_up parse_float (a_method a) = Ok p) ->
  exists prob, prob_up parse_float (if a_rom a then a_method a else "coinflip"%string) = Ok prob.
Proof. intros H. destruct (a_rom a); [auto|]. eexists. reflexivity. Qed.

(** What one step preserves, the whole table has. *)
Section Angles.
Variables (a : angle_args) (ANG_0 T Ts : R) (P : R -> Prop).
Hypothesis TMIN : 0 < a_t_min a.
Hypothesis TS : 0 < Ts.
Hypothesis METH : a_rom a = true -> exists p, prob_up parse_float (a_method a) = Ok p.
Hypothesis STEP : forall t prev kt ka dt phi, 0 <= t -> P prev ->
  resolve_range_of_motion g parse_float a ANG_0 t prev kt ka = Ok (dt, phi) -> a_t_min a <= dt -> P phi.

Lemma resolve_dt t prev kt ka : exists dt phi, resolve_range_of_motion g parse_float a ANG_0 t prev kt ka = Ok (dt, phi) /\
  a_t_min a <= dt <= Rmax (a_t_min a) (a_t_max a t).
Proof.
  destruct (prob_up_Ok a METH) as (prob & PR). destruct (resolve_candidate a prob ANG_0 t prev PR kt ka) as (n & _ & E & _).
  destruct (candidate_form a prob ANG_0 t prev kt ka n) as (kt' & ka' & F). rewrite F in E. eexists _, _. split; [exact E|].
  split; [apply uniform_ge|apply uniform_le].
Qed.

Lemma ang_loop_ok rows : (0 < rows)%nat -> T / a_t_min a < INR rows -> forall fuel i t phi kt ka tab,
  tab_inv (a_t_min a) Ts rows ANG_0 P i t tab -> P phi -> (rows + 1 <= fuel + i)%nat ->
  exists fin t' phi' kt' ka' tab', ang_loop g parse_float fuel a ANG_0 T Ts (i, t, phi, kt, ka, tab) = Ok (fin, t', phi', kt', ka', tab') /\
    tab_inv (a_t_min a) Ts rows ANG_0 P fin t' tab' /\ (i <= fin)%nat /\ (t <= T -> (i < fin)%nat).
Proof.
  intros R1 R2. induction fuel as [|k IH]; intros i t phi kt ka tab I Pp F; cbn [ang_loop]; destruct (rle t T) eqn:C.
  - exfalso. apply rle_true in C. pose proof (ti_t _ _ _ _ _ _ _ _ I) as X. pose proof (ti_i _ _ _ _ _ _ _ _ I) as X1.
    assert (Y : T / a_t_min a * a_t_min a = T) by (field; lra). assert (INR rows <= INR (i - 1)) by (apply le_INR; lia). nra.
  - apply rle_false in C. eexists _, _, _, _, _, _. split; [reflexivity|]. split; [exact I|]. split; [lia|intros; lra].
  - apply rle_true in C.
    destruct (resolve_dt t phi (r_split g kt 2 1) (r_split g ka 2 1)) as (dt & phi' & E & D). rewrite E. cbn [bind].
    assert (T0 : 0 <= t). { pose proof (ti_t _ _ _ _ _ _ _ _ I). pose proof (pos_INR (i - 1)). nra. }
    assert (P1 : P phi') by (apply (STEP t phi (r_split g kt 2 1) (r_split g ka 2 1) dt phi'); auto; lra).
    destruct (IH (S i) (t + dt) phi' (r_split g kt 2 0) (r_split g ka 2 0) (put_row i (on_grid Ts (t + dt), phi') tab)) as (fin & t' & ph & k1 & k2 & tab' & E' & I' & L & G).
    + eapply tab_step; eauto; lra.
    + exact P1.
    + lia.
    + eexists _, _, _, _, _, _. split; [exact E'|]. split; [exact I'|]. split; [lia|intros; lia].
  - apply rle_false in C. eexists _, _, _, _, _, _. split; [reflexivity|]. split; [exact I|]. split; [lia|intros; lra].
Qed.

Lemma angle_table_ok kt ka : 0 <= T -> P ANG_0 -> exists rows key tab, angle_table g parse_float a kt ka ANG_0 T Ts = Ok (key, tab) /\ (0 < rows)%nat /\
  INR rows - 1 <= T / a_t_min a < INR rows /\ table_ok (a_t_min a) Ts rows ANG_0 P tab.
Proof.
  intros HT HP. destruct (table_rows_Ok T (a_t_min a) TMIN HT) as (rows & E & R1 & R2). unfold angle_table. rewrite E. cbn [bind].
  pose proof (tab_start (a_t_min a) Ts rows ANG_0 P TS R1 HP) as I0.
  destruct (ang_loop_ok rows R1 (proj2 R2) (S rows) 1 0 ANG_0 kt ka _ I0 HP ltac:(lia)) as (fin & t' & ph & k1 & k2 & tab' & E' & I' & L & G).
  rewrite E'. cbn [bind]. exists rows. eexists _, _. split; [reflexivity|]. split; [exact R1|]. split; [exact R2|].
  apply (tab_done (a_t_min a) Ts rows ANG_0 P R1 fin t' tab' I').
  specialize (G HT). lia.
Qed.
End Angles.

(** ** Positions *)
Section Try.
Variables (a : pos_args) (t t_pre x_pre : R).
(** The tried values, one after the other *)
Definition tried (key : K) (j : nat) : R := snd (fst (Nat.iter (S j) (try_body g a t t_pre x_pre) (0%nat, x_pre, key))).
Lemma try_count : forall n v, fst (fst (Nat.iter n (try_body g a t t_pre x_pre) v)) = (n + fst (fst v))%nat.
Proof.
  induction n as [|n IH]; intros v; [reflexivity|]. rewrite iter_r, IH. destruct v as [[i x] k]. unfold try_body. destruct (p_max_it a <? i)%nat; cbn; lia.
Qed.
(** Every try is a move with an allowed speed. *)
Lemma tried_speed key j : (j <= p_max_it a)%nat -> exists sign k, (sign = 1 \/ sign = -1) /\
  tried key j = x_pre + sign * uniform g k (p_dmin a t_pre) (p_dmax a t_pre) * (t - t_pre).
Proof.
  intros L. unfold tried. cbn [Nat.iter nat_rect]. change (nat_rect _ _ (fun _ => try_body g a t t_pre x_pre) j) with (Nat.iter j (try_body g a t t_pre x_pre) (0%nat, x_pre, key)).
  pose proof (try_count j (0%nat, x_pre, key)) as Z. destruct (Nat.iter j _ _) as [[i x] k]. cbn [fst] in Z. cbn [try_body]. destruct (Nat.ltb_spec (p_max_it a) i); [lia|]. cbn [fst snd].
  destruct (r_coin g (r_split g k 3 1)); eexists _, _; (split; [|reflexivity]); [now left|now right].
Qed.

(** The search ends with the first acceptable value, or with the last try.  Without any try only if standing still is
    acceptable. *)
Lemma search_ends key : exists x key', 
  (exists i, while (S (S (p_max_it a))) (try_cond a t t_pre x_pre) (try_body g a t t_pre x_pre) (0%nat, x_pre, key) = Ok (i, x, key')) /\
  ((x = x_pre /\ pos_ok a t t_pre x_pre x_pre = true) \/
   exists n, (n <= p_max_it a)%nat /\ x = tried key n /\ (forall m, (m < n)%nat -> pos_ok a t t_pre x_pre (tried key m) = false) /\
     (n = p_max_it a \/ pos_ok a t t_pre x_pre x = true)).
Proof.
  destruct (while_total (try_cond a t t_pre x_pre) (try_body g a t t_pre x_pre) (fun _ => True) (fun v => S (p_max_it a) - fst (fst v))%nat) with (fuel := S (S (p_max_it a))) (x := (0%nat, x_pre, key)) as (y & E & _ & _).
  - intros [[i x] k] _ C. split; [exact I|]. unfold try_cond in C. apply negb_true_iff, orb_false_iff in C. destruct C as [_ C]. apply Nat.ltb_ge in C. cbn [fst].
    unfold try_body. destruct (Nat.ltb_spec (p_max_it a) i); cbn [fst]; lia.
  - exact I.
  - cbn [fst]. lia.
  - destruct (while_iter _ _ _ _ _ E) as (n & -> & B & D).
    assert (NEG : forall m, (S m < n)%nat -> pos_ok a t t_pre x_pre (tried key m) = false /\ (S m <= p_max_it a)%nat).
    { intros m Hm. specialize (B (S m) Hm). pose proof (try_count (S m) (0%nat, x_pre, key)) as Z. unfold tried.
      destruct (Nat.iter (S m) _ _) as [[i x] k]. cbn [fst snd] in *. unfold try_cond in B. apply negb_true_iff, orb_false_iff in B. destruct B as [B1 B2].
      apply Nat.ltb_ge in B2. split; [exact B1|lia]. }
    destruct n as [|n].
    + cbn [Nat.iter nat_rect] in *. exists x_pre, key. split; [exists 0%nat; exact E|]. left. split; [reflexivity|]. cbn in D. apply negb_false_iff, orb_true_iff in D.
      destruct D as [D|D]; [exact D|discriminate].
    + pose proof (try_count (S n) (0%nat, x_pre, key)) as Z.
      assert (TE : tried key n = snd (fst (Nat.iter (S n) (try_body g a t t_pre x_pre) (0%nat, x_pre, key)))) by reflexivity.
      destruct (Nat.iter (S n) _ _) as [[i x] k] eqn:EI. cbn [fst snd] in *. exists x, k. split; [exists i; exact E|]. right. exists n.
      unfold try_cond in D. apply negb_false_iff, orb_true_iff in D.
      assert (LE : (n <= p_max_it a)%nat). { destruct n as [|n]; [lia|]. apply (NEG n). lia. }
      split; [exact LE|]. split; [now symmetry|]. split; [intros m Hm; apply NEG; lia|].
      destruct D as [D|D]; [now right|]. apply Nat.ltb_lt in D. left. lia.
Qed.
End Try.

Section Positions.
Variables (a : pos_args) (POS_0 T Ts : R) (P : R -> Prop).
Hypothesis TMIN : 0 < p_t_min a.
Hypothesis TS : 0 < Ts.
Hypothesis STEP : forall t_pre t x_pre key i x key', 0 <= t_pre -> p_t_min a <= t - t_pre <= Rmax (p_t_min a) (p_t_max a t_pre) -> P x_pre ->
  while (S (S (p_max_it a))) (try_cond a t t_pre x_pre) (try_body g a t t_pre x_pre) (0%nat, x_pre, key) = Ok (i, x, key') -> P x.

Lemma pos_loop_ok rows : (0 < rows)%nat -> T / p_t_min a < INR rows -> forall fuel i t x key tab,
  tab_inv (p_t_min a) Ts rows POS_0 P i t tab -> P x -> (rows + 1 <= fuel + i)%nat ->
  exists fin t' x' key' tab', pos_loop g fuel a T Ts (i, t, x, key, tab) = Ok (fin, t', x', key', tab') /\
    tab_inv (p_t_min a) Ts rows POS_0 P fin t' tab' /\ (i <= fin)%nat /\ (t <= T -> (i < fin)%nat).
Proof.
  intros R1 R2. induction fuel as [|k IH]; intros i t x key tab I Pp F; cbn [pos_loop]; destruct (rle t T) eqn:C.
  - exfalso. apply rle_true in C. pose proof (ti_t _ _ _ _ _ _ _ _ I) as X. pose proof (ti_i _ _ _ _ _ _ _ _ I) as X1.
    assert (Y : T / p_t_min a * p_t_min a = T) by (field; lra). assert (INR rows <= INR (i - 1)) by (apply le_INR; lia). nra.
  - apply rle_false in C. eexists _, _, _, _, _. split; [reflexivity|]. split; [exact I|]. split; [lia|intros; lra].
  - apply rle_true in C. set (t1 := t + uniform g (r_split g key 2 1) (p_t_min a) (p_t_max a t)).
    assert (D : p_t_min a <= t1 - t <= Rmax (p_t_min a) (p_t_max a t)).
    { unfold t1. replace (t + _ - t) with (uniform g (r_split g key 2 1) (p_t_min a) (p_t_max a t)) by ring. split; [apply uniform_ge|apply uniform_le]. }
    destruct (search_ends a t1 t x (r_split g key 2 0)) as (x1 & key1 & (i1 & E) & _). rewrite E. cbn [bind].
    assert (T0 : 0 <= t). { pose proof (ti_t _ _ _ _ _ _ _ _ I). pose proof (pos_INR (i - 1)). nra. }
    assert (P1 : P x1) by (apply (STEP t t1 x (r_split g key 2 0) i1 x1 key1); auto).
    destruct (IH (S i) t1 x1 key1 (put_row i (on_grid Ts t1, x1) tab)) as (fin & t' & ph & k1 & tab' & E' & I' & L & G).
    + eapply tab_step; eauto; lra.
    + exact P1.
    + lia.
    + eexists _, _, _, _, _. split; [exact E'|]. split; [exact I'|]. split; [lia|intros; lia].
  - apply rle_false in C. eexists _, _, _, _, _. split; [reflexivity|]. split; [exact I|]. split; [lia|intros; lra].
Qed.
Lemma position_table_ok key : 0 <= T -> P POS_0 -> exists rows key' tab, position_table g a key POS_0 T Ts = Ok (key', tab) /\ (0 < rows)%nat /\
  INR rows - 1 <= T / p_t_min a < INR rows /\ table_ok (p_t_min a) Ts rows POS_0 P tab.
Proof.
  intros HT HP. destruct (table_rows_Ok T (p_t_min a) TMIN HT) as (rows & E & R1 & R2). unfold position_table. rewrite E. cbn [bind].
  pose proof (tab_start (p_t_min a) Ts rows POS_0 P TS R1 HP) as I0.
  destruct (pos_loop_ok rows R1 (proj2 R2) (S rows) 1 0 POS_0 key _ I0 HP ltac:(lia)) as (fin & t' & ph & k1 & tab' & E' & I' & L & G).
  rewrite E'. cbn [bind]. exists rows. eexists _, _. split; [reflexivity|]. split; [exact R1|]. split; [exact R2|].
  apply (tab_done (p_t_min a) Ts rows POS_0 P R1 fin t' tab' I'). specialize (G HT). lia.
Qed.
End Positions.
End Draws.
