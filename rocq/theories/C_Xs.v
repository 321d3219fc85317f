(** * Property C45: splitting, recombining, matching and re-rooting of recorded motion *)
From Coq Require Import Reals Lra String ZArith Lia Bool List.
From Verif Require Import Prelude M_Sys M_Math P_Math M_Sens P_Scan P_Run S_Sys P_Kin C_Sens M_Target C_Target M_Geom M_Joint M_Kin X_Demo.
Import ListNotations.
Local Open Scope nat_scope.

(** ** Poses relative to the parent link: the specification of this file *)
(** [rel_pose_of s row i x]: in the row of poses [row] of all links, [x] is the pose of link [i] relative to its
    parent, which for a link connected to the world is its pose. *)
Definition rel_pose_of {K L G O} (s : System K L G O) (row : list transform) (i : nat) (x : transform) : Prop :=
  (nth_error (link_parents s) i = Some (-1)%Z /\ nth_error row i = Some x) \/
  (exists p xi xp, nth_error (link_parents s) i = Some (Z.of_nat p) /\ nth_error row i = Some xi /\ nth_error row p = Some xp /\ x = t_mul xi (t_inv xp)).
(** [root_link s i r]: the chain of parents of link [i] ends in link [r]. *)
Inductive root_link {K L G O} (s : System K L G O) : nat -> nat -> Prop :=
| root_here i : nth_error (link_parents s) i = Some (-1)%Z -> root_link s i i
| root_up i p r : nth_error (link_parents s) i = Some (Z.of_nat p) -> root_link s p r -> root_link s i r.
(** One pose per link at every time, with unit quaternions. *)
Definition poses_of {K L G O} (s : System K L G O) (xs : traj) : Prop :=
  tr_links xs = num_links s /\ Forall (fun row => length row = num_links s /\ Forall tunit row) (tr_rows xs).

Lemma pure_pos_rot x : t_mul (Tr vzero (t_rot x)) (Tr (t_pos x) qone) = x.
Proof. destruct x as [p q]. apply transform_ext; cbn [t_pos t_rot t_mul]; destruct p, q; vunfold; f_equal; ring. Qed.
Lemma t_inv_0 : t_inv t_zero = t_zero.
Proof. apply transform_ext; vring. Qed.
Lemma cancel_r a b c : tunit a -> tunit b -> tunit c -> t_mul a (t_inv c) = t_mul b (t_inv c) -> a = b.
Proof.
  intros A B C H. rewrite <- (t_mul_0_r a), <- (t_mul_0_r b), <- (t_mul_inv_l c C), !t_mul_assoc by auto using tunit_inv. now rewrite H.
Qed.
Lemma nth_unit row i : Forall tunit row -> tunit (nth i row t_zero).
Proof.
  intros F. destruct (le_lt_dec (length row) i); [rewrite nth_overflow by auto; apply tunit_zero|]. rewrite Forall_forall in F. apply F. now apply nth_In.
Qed.
Lemma nth_nth_error {A} (l : list A) i d : i < length l -> nth_error l i = Some (nth i l d).
Proof. apply nth_error_nth'. Qed.
Lemma replace_nth_length {A} (l : list A) : forall i v, length (replace_nth l i v) = length l.
Proof. induction l as [|a l IH]; intros [|i] v; cbn; auto. Qed.
Lemma replace_nth_nth {A} (l : list A) : forall i j v d, i < length l -> nth j (replace_nth l i v) d = if j =? i then v else nth j l d.
Proof. induction l as [|a l IH]; intros [|i] [|j] v d H; cbn [length] in H; try lia; try reflexivity. cbn [replace_nth nth Nat.eqb]. apply IH. lia. Qed.
Lemma mapM_map {A B} (f : A -> result B) (g : A -> B) l : (forall a, In a l -> f a = Ok (g a)) -> mapM f l = Ok (map g l).
Proof. induction l as [|a l IH]; intros H; [reflexivity|]. cbn [mapM map]. rewrite H by now left. cbn [bind]. rewrite IH; [reflexivity|]. intros b Hb. apply H. now right. Qed.

Section Rows.
Context {K L G O : Type} (W : widths) (s : System K L G O).
Hypothesis WF : wf W s.
Notation n := (num_links s).
Definition row_ok (row : list transform) := length row = n /\ Forall tunit row.
Definition rel (row : list transform) (i : nat) : transform :=
  if Z.eqb (pr_ s i) (-1) then nth i row t_zero else t_mul (nth i row t_zero) (t_inv (nth (Z.to_nat (pr_ s i)) row t_zero)).
Lemma rel_spec row i : length row = n -> i < n -> rel_pose_of s row i (rel row i).
Proof.
  intros Lr Hi. unfold rel. destruct (Z.eqb_spec (pr_ s i) (-1)) as [E|E].
  - left. split; [rewrite <- E; now apply pr_spec|]. apply nth_nth_error. lia.
  - right. pose proof (pr_range W s WF i Hi). exists (Z.to_nat (pr_ s i)). do 2 eexists. rewrite Z2Nat.id by lia. split; [now apply pr_spec|].
    split; [apply nth_nth_error; lia|]. split; [apply nth_nth_error; lia|reflexivity].
Qed.
Lemma rel_pose_of_iff row i x : length row = n -> i < n -> (rel_pose_of s row i x <-> x = rel row i).
Proof.
  intros Lr Hi. split; [|intros ->; now apply rel_spec]. pose proof (pr_spec s i Hi) as PE. unfold rel. intros [[P E]|(p & xi & xp & P & E1 & E2 & ->)].
  - rewrite P in PE. injection PE as <-. change (-1 =? -1)%Z with true. cbv iota. symmetry. now apply nth_error_nth.
  - rewrite P in PE. injection PE as <-. destruct (Z.eqb_spec (Z.of_nat p) (-1)); [lia|]. rewrite Nat2Z.id. f_equal; [|f_equal]; symmetry; now apply nth_error_nth.
Qed.
Lemma rel_unit row i : Forall tunit row -> tunit (rel row i).
Proof. intros F. unfold rel. destruct (Z.eqb _ _); auto using nth_unit, tunit_mul, tunit_inv. Qed.
Lemma rel_inj r1 r2 : row_ok r1 -> row_ok r2 -> (forall i, i < n -> rel r1 i = rel r2 i) -> r1 = r2.
Proof.
  intros [L1 U1] [L2 U2] H. assert (A : forall m i, i < m -> i < n -> nth i r1 t_zero = nth i r2 t_zero).
  { induction m as [|m IH]; intros i Hm Hi; [lia|]. specialize (H i Hi). unfold rel in H. destruct (Z.eqb_spec (pr_ s i) (-1)) as [E|E]; [auto|].
    pose proof (pr_range W s WF i Hi) as PR. rewrite <- (IH (Z.to_nat (pr_ s i))) in H by lia. set (xp := nth (Z.to_nat (pr_ s i)) r1 t_zero) in H.
    assert (Up : tunit xp) by now apply nth_unit.
    apply (cancel_r _ _ xp); [now apply nth_unit|now apply nth_unit|exact Up|exact H]. }
  apply nth_ext with (d := t_zero) (d' := t_zero); [lia|]. intros i Hi. apply (A (S i)); lia.
Qed.

Lemma unzip_row_ok row : length row = n ->
  unzip_row W s row = Ok (map (fun i => (Tr (t_pos (rel row i)) qone, Tr vzero (t_rot (rel row i)))) (seq 0 n)).
Proof.
  intros Lr. unfold unzip_row. destruct (scan_ids W s WF (unzip_step row) tt) as (im & ->).
  assert (A : forall m k y, k + m = n -> run (unzip_step row) im y tt (map (fun i => [One (GInt (Z.of_nat i)); One (GInt (pr_ s i))]) (seq k m)) =
    Ok (map (fun i => (Tr (t_pos (rel row i)) qone, Tr vzero (t_rot (rel row i)))) (seq k m), tt)).
  { induction m as [|m IH]; intros k y Hk; [reflexivity|]. cbn [seq map run].
    assert (S1 : unzip_step row y im [One (GInt (Z.of_nat k)); One (GInt (pr_ s k))] tt = Ok ((Tr (t_pos (rel row k)) qone, Tr vzero (t_rot (rel row k))), tt)).
    { unfold unzip_step. assert (Hz : (0 <= Z.of_nat k)%Z) by lia. rewrite (proj2 (py_get_nonneg row (Z.of_nat k) (nth k row t_zero) Hz)); [|rewrite Nat2Z.id; apply nth_nth_error; lia].
      cbn [bind]. unfold rel. destruct (Z.eqb_spec (pr_ s k) (-1)) as [E|E]; [reflexivity|]. assert (Hkn : k < n) by lia. pose proof (pr_range W s WF k Hkn) as PR.
      assert (Hz' : (0 <= pr_ s k)%Z) by lia. rewrite (proj2 (py_get_nonneg row (pr_ s k) (nth (Z.to_nat (pr_ s k)) row t_zero) Hz')); [|apply nth_nth_error; lia]. reflexivity. }
    rewrite S1. cbn [bind fst snd]. rewrite IH by lia. reflexivity. }
  rewrite A by lia. reflexivity.
Qed.

Lemma zip_row_ok r1 r2 : length r1 = n -> length r2 = n -> exists out, zip_row W s (r1, r2) = Ok out /\ length out = n /\
  forall i, i < n -> nth i out t_zero = t_mul (t_mul (nth i r2 t_zero) (nth i r1 t_zero)) (if Z.eqb (pr_ s i) (-1) then t_zero else nth (Z.to_nat (pr_ s i)) out t_zero).
Proof.
  intros L1 L2. unfold zip_row. cbn [fst snd]. destruct (scan_ids W s WF (zip_step r1 r2) [((-1)%Z, t_zero)]) as (im & ->).
  set (inv := fun (out : list transform) (st : list (Z * transform)) => dget Z.eqb st (-1)%Z = Some t_zero /\ forall i x, nth_error out i = Some x -> dget Z.eqb st (Z.of_nat i) = Some x).
  assert (A : forall m k y st pre, k + m = n -> length pre = k -> inv pre st -> exists out st',
    run (zip_step r1 r2) im y st (map (fun i => [One (GInt (Z.of_nat i)); One (GInt (pr_ s i))]) (seq k m)) = Ok (out, st') /\ length out = m /\
    forall i, k <= i < n -> nth i (pre ++ out) t_zero = t_mul (t_mul (nth i r2 t_zero) (nth i r1 t_zero)) (if Z.eqb (pr_ s i) (-1) then t_zero else nth (Z.to_nat (pr_ s i)) (pre ++ out) t_zero)).
  { induction m as [|m IH]; intros k y st pre Hk Lp [I1 I2].
    { do 2 eexists. split; [reflexivity|]. split; [reflexivity|]. intros; lia. }
    cbn [seq map run]. assert (Hkn : k < n) by lia. pose proof (pr_range W s WF k Hkn) as PR.
    set (xp := if Z.eqb (pr_ s k) (-1) then t_zero else nth (Z.to_nat (pr_ s k)) pre t_zero).
    set (x := t_mul (t_mul (nth k r2 t_zero) (nth k r1 t_zero)) xp).
    assert (S1 : zip_step r1 r2 y im [One (GInt (Z.of_nat k)); One (GInt (pr_ s k))] st = Ok (x, dset Z.eqb st (Z.of_nat k) x)).
    { unfold zip_step. assert (Hz : (0 <= Z.of_nat k)%Z) by lia.
      rewrite (proj2 (py_get_nonneg r2 (Z.of_nat k) (nth k r2 t_zero) Hz)); [|rewrite Nat2Z.id; apply nth_nth_error; lia]. cbn [bind].
      rewrite (proj2 (py_get_nonneg r1 (Z.of_nat k) (nth k r1 t_zero) Hz)); [|rewrite Nat2Z.id; apply nth_nth_error; lia]. cbn [bind].
      assert (Hx : dget Z.eqb st (pr_ s k) = Some xp).
      { unfold xp. destruct (Z.eqb_spec (pr_ s k) (-1)) as [->|E]; [exact I1|]. rewrite <- (Z2Nat.id (pr_ s k)) at 1 by lia. apply I2. apply nth_nth_error. lia. }
      unfold dgetE. rewrite Hx. reflexivity. }
    rewrite S1. cbn [bind fst snd]. destruct (IH (S k) (Some x) (dset Z.eqb st (Z.of_nat k) x) (pre ++ [x])) as (out & st' & -> & Lo & F).
    - lia.
    - rewrite app_length. cbn. lia.
    - split.
      + rewrite dget_dset. destruct (Z.eqb_spec (-1) (Z.of_nat k)); [lia|exact I1].
      + intros i z Hz. rewrite dget_dset. destruct (Z.eqb_spec (Z.of_nat i) (Z.of_nat k)) as [E|E].
        * assert (i = k) by lia. subst i. rewrite nth_error_app2 in Hz by lia. rewrite Lp, Nat.sub_diag in Hz. cbn in Hz. congruence.
        * apply I2. assert (i < length (pre ++ [x])) by (apply nth_error_Some; congruence). rewrite app_length in H. cbn in H. rewrite nth_error_app1 in Hz by lia. exact Hz.
    - cbn [bind fst snd]. do 2 eexists. split; [reflexivity|]. split; [cbn; lia|]. rewrite <- app_assoc in F. cbn [app] in F. intros i Hi.
      destruct (Nat.eq_dec i k) as [->|Ni]; [|apply F; lia]. rewrite app_nth2 by lia. rewrite Lp, Nat.sub_diag. cbn [nth]. unfold x, xp.
      destruct (Z.eqb_spec (pr_ s k) (-1)) as [E|E]; [reflexivity|]. rewrite app_nth1 by lia. reflexivity. }
  destruct (A n 0 None [((-1)%Z, t_zero)] []) as (out & st' & -> & Lo & F); [lia|reflexivity|split; [reflexivity|intros [|i]; discriminate]|].
  cbn [bind fst snd]. exists out. split; [reflexivity|]. split; [exact Lo|]. intros i Hi. apply F. lia.
Qed.
Lemma zip_row_unit r1 r2 out : Forall tunit r1 -> Forall tunit r2 -> length out = n ->
  (forall i, i < n -> nth i out t_zero = t_mul (t_mul (nth i r2 t_zero) (nth i r1 t_zero)) (if Z.eqb (pr_ s i) (-1) then t_zero else nth (Z.to_nat (pr_ s i)) out t_zero)) ->
  row_ok out /\ forall i, i < n -> rel out i = t_mul (nth i r2 t_zero) (nth i r1 t_zero).
Proof.
  intros U1 U2 Lo H. assert (A : forall m i, i < m -> i < n -> tunit (nth i out t_zero)).
  { induction m as [|m IH]; intros i Hm Hi; [lia|]. rewrite H by auto. apply tunit_mul; [auto using tunit_mul, nth_unit|].
    destruct (Z.eqb_spec (pr_ s i) (-1)); [apply tunit_zero|]. pose proof (pr_range W s WF i Hi). apply IH; lia. }
  assert (U : Forall tunit out). { apply Forall_forall. intros x Hx. apply (In_nth _ _ t_zero) in Hx. destruct Hx as (i & Hi & <-). apply (A (S i)); lia. }
  split; [split; auto|]. intros i Hi. unfold rel. rewrite (H i Hi). destruct (Z.eqb_spec (pr_ s i) (-1)); [apply t_mul_0_r|].
  rewrite <- t_mul_assoc by auto using nth_unit, tunit_mul, tunit_inv. rewrite t_mul_inv_r by now apply nth_unit. apply t_mul_0_r.
Qed.

(** ** The functions on whole trajectories *)
Definition t1_row row := map (fun i => Tr (t_pos (rel row i)) qone) (seq 0 n).
Definition t2_row row := map (fun i => Tr vzero (t_rot (rel row i))) (seq 0 n).
Lemma unzip_ok xs : poses_of s xs -> unzip_xs W s xs = Ok (mkTraj n (map t1_row (tr_rows xs)), mkTraj n (map t2_row (tr_rows xs))).
Proof.
  intros [HL F]. unfold unzip_xs, check_series, assert_. rewrite HL, Nat.eqb_refl. cbn [bind].
  rewrite (mapM_map _ (fun row => map (fun i => (Tr (t_pos (rel row i)) qone, Tr vzero (t_rot (rel row i)))) (seq 0 n))).
  - cbn [bind]. rewrite !map_map. do 2 f_equal; f_equal; apply map_ext; intros row; rewrite map_map; reflexivity.
  - intros row Hr. rewrite Forall_forall in F. apply unzip_row_ok. now apply F.
Qed.
Lemma t1_nth row i : i < n -> nth i (t1_row row) t_zero = Tr (t_pos (rel row i)) qone.
Proof. intros H. unfold t1_row. apply nth_error_nth. now rewrite nth_map_seq. Qed.
Lemma t2_nth row i : i < n -> nth i (t2_row row) t_zero = Tr vzero (t_rot (rel row i)).
Proof. intros H. unfold t2_row. apply nth_error_nth. now rewrite nth_map_seq. Qed.
Lemma t1_length row : length (t1_row row) = n. Proof. unfold t1_row. now rewrite map_length, seq_length. Qed.
Lemma t2_length row : length (t2_row row) = n. Proof. unfold t2_row. now rewrite map_length, seq_length. Qed.
Lemma t1_unit row : Forall tunit (t1_row row).
Proof. unfold t1_row. apply Forall_forall. intros x Hx. apply in_map_iff in Hx. destruct Hx as (i & <- & _). apply qunit_one. Qed.
Lemma t2_unit row : Forall tunit row -> Forall tunit (t2_row row).
Proof. intros U. unfold t2_row. apply Forall_forall. intros x Hx. apply in_map_iff in Hx. destruct Hx as (i & <- & _). exact (rel_unit row i U). Qed.
Lemma zip_ok t1 t2 : tr_links t1 = n -> tr_links t2 = n -> length (tr_rows t1) = length (tr_rows t2) ->
  Forall row_ok (tr_rows t1) -> Forall row_ok (tr_rows t2) ->
  exists ys, zip_xs W s t1 t2 = Ok ys /\ poses_of s ys /\ length (tr_rows ys) = length (tr_rows t1) /\
    forall k r1 r2, nth_error (tr_rows t1) k = Some r1 -> nth_error (tr_rows t2) k = Some r2 ->
      exists row, nth_error (tr_rows ys) k = Some row /\ row_ok row /\ forall i, i < n -> rel row i = t_mul (nth i r2 t_zero) (nth i r1 t_zero).
Proof.
  intros N1 N2 LE F1 F2. unfold zip_xs, check_series, assert_. rewrite N1, N2, LE, !Nat.eqb_refl. cbn [bind].
  set (Q := fun (p : list transform * list transform) row => row_ok row /\ forall i, i < n -> rel row i = t_mul (nth i (snd p) t_zero) (nth i (fst p) t_zero)).
  destruct (mapM_rel (zip_row W s) Q (combine (tr_rows t1) (tr_rows t2))) as (rows & E & F).
  { intros [r1 r2] Hr. pose proof (in_combine_l _ _ _ _ Hr) as H1. pose proof (in_combine_r _ _ _ _ Hr) as H2. rewrite Forall_forall in F1, F2.
    destruct (F1 _ H1) as [L1 U1], (F2 _ H2) as [L2 U2]. destruct (zip_row_ok r1 r2 L1 L2) as (out & Eo & Lo & Fo). exists out. split; [exact Eo|].
    exact (zip_row_unit r1 r2 out U1 U2 Lo Fo). }
  rewrite E. cbn [bind]. pose proof (Forall2_length _ _ _ F) as LL. rewrite combine_length, LE, Nat.min_id in LL.
  eexists. split; [reflexivity|]. cbn [tr_links tr_rows]. split; [split; [reflexivity|]|split; [lia|]].
  - cbn [tr_rows]. apply Forall_forall. intros row Hr. apply In_nth_error in Hr. destruct Hr as (k & Hk).
    destruct (nth_error (combine (tr_rows t1) (tr_rows t2)) k) as [p|] eqn:Ep.
    + destruct (Forall2_nth _ _ _ F k p Ep) as (b & Hb & [Qb _]). rewrite Hk in Hb. injection Hb as <-. exact Qb.
    + apply nth_error_None in Ep. rewrite combine_length in Ep. assert (k < length rows) by (apply nth_error_Some; congruence). lia.
  - intros k r1 r2 E1 E2. destruct (Forall2_nth _ _ _ F k (r1, r2)) as (b & Hb & Qb); [now apply nth_error_combine_Some|]. exists b. split; auto.
Qed.

(** Splitting gives a pure translation followed by a pure rotation that together are the pose relative to the parent. *)
Theorem C45_unzip xs : poses_of s xs -> exists t1 t2, unzip_xs W s xs = Ok (t1, t2) /\
  length (tr_rows t1) = length (tr_rows xs) /\ length (tr_rows t2) = length (tr_rows xs) /\
  forall k row i, nth_error (tr_rows xs) k = Some row -> i < n -> exists r1 r2 a b,
    nth_error (tr_rows t1) k = Some r1 /\ nth_error (tr_rows t2) k = Some r2 /\ nth_error r1 i = Some a /\ nth_error r2 i = Some b /\
    t_rot a = qone /\ t_pos b = vzero /\ rel_pose_of s row i (t_mul b a).
Proof.
  intros P. rewrite unzip_ok by auto. do 2 eexists. split; [reflexivity|]. cbn [tr_rows]. split; [apply map_length|]. split; [apply map_length|].
  intros k row i Hk Hi. destruct P as [_ P]. rewrite Forall_forall in P. destruct (P row (nth_error_In _ _ Hk)) as [Lr _].
  exists (t1_row row), (t2_row row), (Tr (t_pos (rel row i)) qone), (Tr vzero (t_rot (rel row i))).
  split; [now rewrite nth_error_map, Hk|]. split; [now rewrite nth_error_map, Hk|].
  split; [unfold t1_row; now rewrite nth_map_seq|]. split; [unfold t2_row; now rewrite nth_map_seq|]. split; [reflexivity|]. split; [reflexivity|]. rewrite pure_pos_rot. now apply rel_spec.
Qed.
(** Recombining what was split gives back the recording. *)
Theorem C45_zip_unzip xs : poses_of s xs -> (do t12 <- unzip_xs W s xs; zip_xs W s (fst t12) (snd t12)) = Ok xs.
Proof.
  intros P. rewrite unzip_ok by auto. cbn [bind fst snd]. pose proof P as [PL PR]. rewrite Forall_forall in PR.
  destruct (zip_ok (mkTraj n (map t1_row (tr_rows xs))) (mkTraj n (map t2_row (tr_rows xs)))) as (ys & E & [YL YU] & LY & F); cbn [tr_links tr_rows]; auto.
  - now rewrite !map_length.
  - apply Forall_forall. intros r Hr. apply in_map_iff in Hr. destruct Hr as (row & <- & _). split; [apply t1_length|apply t1_unit].
  - apply Forall_forall. intros r Hr. apply in_map_iff in Hr. destruct Hr as (row & <- & Hr). split; [apply t2_length|apply t2_unit; now apply PR].
  - rewrite E. f_equal. destruct xs as [xl xr], ys as [yl yr]. cbn [tr_links tr_rows] in *. rewrite map_length in LY. f_equal; [lia|].
    apply nth_error_ext. intros k. destruct (nth_error xr k) as [row|] eqn:Ek.
    + destruct (F k (t1_row row) (t2_row row)) as (row' & -> & [Lr Ur] & H); [now rewrite nth_error_map, Ek|now rewrite nth_error_map, Ek|].
      f_equal. destruct (PR row (nth_error_In _ _ Ek)). apply rel_inj; [split; auto|split; auto|]. intros i Hi. rewrite H, t1_nth, t2_nth by auto. apply pure_pos_rot.
    + apply nth_error_None in Ek. apply nth_error_None. lia.
Qed.
(** Recombining arbitrary translations and rotations gives poses whose pose relative to the parent is theirs. *)
Theorem C45_zip t1 t2 : poses_of s t1 -> poses_of s t2 -> length (tr_rows t1) = length (tr_rows t2) ->
  exists ys, zip_xs W s t1 t2 = Ok ys /\ poses_of s ys /\ length (tr_rows ys) = length (tr_rows t1) /\
    forall k r1 r2 i a b, nth_error (tr_rows t1) k = Some r1 -> nth_error (tr_rows t2) k = Some r2 -> nth_error r1 i = Some a -> nth_error r2 i = Some b ->
      exists row, nth_error (tr_rows ys) k = Some row /\ rel_pose_of s row i (t_mul b a).
Proof.
  intros [N1 F1] [N2 F2] LE. destruct (zip_ok t1 t2 N1 N2 LE F1 F2) as (ys & E & P & LY & F). exists ys. split; [exact E|]. split; [exact P|]. split; [exact LY|].
  intros k r1 r2 i a b E1 E2 Ea Eb. destruct (F k r1 r2 E1 E2) as (row & Er & [Lr Ur] & H). exists row. split; [exact Er|].
  rewrite Forall_forall in F1. assert (Hi : i < n) by (destruct (F1 _ (nth_error_In _ _ E1)) as [L1 _]; rewrite <- L1; apply nth_error_Some; congruence).
  apply rel_pose_of_iff; auto. rewrite H by auto. f_equal; symmetry; now apply nth_error_nth.
Qed.

(** Overwriting the pose of one link relative to its parent leaves those of the other links. *)
Lemma overwrite_ok xs new i : poses_of s xs -> length new = length (tr_rows xs) -> Forall tunit new -> i < n ->
  exists ys, overwrite_link W s xs new i = Ok ys /\ poses_of s ys /\ length (tr_rows ys) = length (tr_rows xs) /\
    forall k row x, nth_error (tr_rows xs) k = Some row -> nth_error new k = Some x ->
      exists row', nth_error (tr_rows ys) k = Some row' /\ row_ok row' /\ forall j, j < n -> rel row' j = if j =? i then x else rel row j.
Proof.
  intros P LN UN Hi. unfold overwrite_link. rewrite unzip_ok by auto. cbn [bind fst snd]. unfold replace_link. cbn [tr_links tr_rows]. destruct P as [PL PR]. rewrite Forall_forall in PR, UN.
  destruct (zip_ok (mkTraj n (zipwith (fun row x => replace_nth row i x) (map t1_row (tr_rows xs)) new))
                   (mkTraj n (zipwith (fun row x => replace_nth row i x) (map t2_row (tr_rows xs)) (map (fun _ => t_zero) new)))) as (ys & E & PY & LY & F); cbn [tr_links tr_rows]; auto.
  - rewrite !zipwith_length, !map_length. lia.
  - apply Forall_forall. intros r Hr. apply In_nth_error in Hr. destruct Hr as (k & Hk). rewrite nth_error_zipwith, nth_error_map in Hk.
    destruct (nth_error (tr_rows xs) k) as [row|] eqn:Er; [|discriminate]. destruct (nth_error new k) as [x|] eqn:Ex; [|discriminate]. cbn [option_map] in Hk. injection Hk as <-.
    split; [now rewrite replace_nth_length, t1_length|]. apply Forall_forall. intros z Hz. apply (In_nth _ _ t_zero) in Hz. destruct Hz as (j & _ & <-).
    rewrite replace_nth_nth by now rewrite t1_length. destruct (j =? i); [apply UN; eapply nth_error_In; eauto|apply nth_unit, t1_unit].
  - apply Forall_forall. intros r Hr. apply In_nth_error in Hr. destruct Hr as (k & Hk). rewrite nth_error_zipwith, !nth_error_map in Hk.
    destruct (nth_error (tr_rows xs) k) as [row|] eqn:Er; [|discriminate]. destruct (nth_error new k) as [x|] eqn:Ex; [|discriminate]. cbn [option_map] in Hk. injection Hk as <-.
    split; [now rewrite replace_nth_length, t2_length|]. apply Forall_forall. intros z Hz. apply (In_nth _ _ t_zero) in Hz. destruct Hz as (j & _ & <-).
    rewrite replace_nth_nth by now rewrite t2_length. destruct (j =? i); [apply tunit_zero|]. apply nth_unit, t2_unit. apply (PR row). eapply nth_error_In; eauto.
  - exists ys. split; [exact E|]. split; [exact PY|]. split; [cbn [tr_rows] in LY; rewrite LY, zipwith_length, map_length; lia|]. intros k row x Ek Ex.
    destruct (F k (replace_nth (t1_row row) i x) (replace_nth (t2_row row) i t_zero)) as (row' & Er' & OK & H).
    + cbn [tr_rows]. rewrite nth_error_zipwith, nth_error_map, Ek, Ex. reflexivity.
    + cbn [tr_rows]. rewrite nth_error_zipwith, !nth_error_map, Ek, Ex. reflexivity.
    + exists row'. split; [exact Er'|]. split; [exact OK|]. intros j Hj. rewrite H by auto. rewrite !replace_nth_nth by (rewrite ?t1_length, ?t2_length; auto).
      destruct (Nat.eqb_spec j i); [apply t_mul_0_l|]. rewrite t1_nth, t2_nth by auto. apply pure_pos_rot.
Qed.

Lemma delete_ok xs : poses_of s xs -> exists ys, delete_to_world W s xs = Ok ys /\ poses_of s ys /\ length (tr_rows ys) = length (tr_rows xs) /\
  forall k row, nth_error (tr_rows xs) k = Some row -> exists row', nth_error (tr_rows ys) k = Some row' /\
    forall j, j < n -> rel row' j = if Z.eqb (pr_ s j) (-1) then t_zero else rel row j.
Proof.
  intros P. unfold delete_to_world, check_series, assert_. rewrite (proj1 P), Nat.eqb_refl. cbn [bind].
  change (length (link_parents s)) with n.
  assert (A : forall m k ys0, k + m = n -> poses_of s ys0 -> length (tr_rows ys0) = length (tr_rows xs) ->
     (forall t row, nth_error (tr_rows xs) t = Some row -> exists row', nth_error (tr_rows ys0) t = Some row' /\
        forall j, j < n -> rel row' j = if (j <? k) && Z.eqb (pr_ s j) (-1) then t_zero else rel row j) ->
     exists ys, foldM (fun xs ip => if Z.eqb (snd ip) (-1) then overwrite_link W s xs (map (fun _ => t_zero) (tr_rows xs)) (fst ip) else Ok xs)
       ys0 (combine (seq k m) (skipn k (link_parents s))) = Ok ys /\ poses_of s ys /\ length (tr_rows ys) = length (tr_rows xs) /\
       forall t row, nth_error (tr_rows xs) t = Some row -> exists row', nth_error (tr_rows ys) t = Some row' /\
         forall j, j < n -> rel row' j = if Z.eqb (pr_ s j) (-1) then t_zero else rel row j).
  { induction m as [|m IH]; intros k ys0 Hk PY LY Inv.
    { cbn [seq combine foldM]. exists ys0. split; [reflexivity|]. split; [exact PY|]. split; [exact LY|]. intros t row Et. destruct (Inv t row Et) as (row' & E' & H). exists row'. split; [exact E'|].
      intros j Hj. rewrite H by auto. destruct (Nat.ltb_spec j k); [reflexivity|lia]. }
    assert (Hkn : k < n) by lia. assert (SK : skipn k (link_parents s) = pr_ s k :: skipn (S k) (link_parents s)).
    { clear - Hkn. unfold pr_, num_links in *. revert k Hkn. induction (link_parents s) as [|a l IH]; intros [|k] H; cbn [length] in H; try lia; [reflexivity|]. cbn [skipn nth]. apply IH. lia. }
    rewrite SK. cbn [seq combine foldM fst snd]. destruct (Z.eqb_spec (pr_ s k) (-1)) as [E|E].
    - destruct (overwrite_ok ys0 (map (fun _ => t_zero) (tr_rows ys0)) k PY) as (ys1 & -> & PY1 & LY1 & F1); auto.
      { apply map_length. }
      { apply Forall_forall. intros x Hx. apply in_map_iff in Hx. destruct Hx as (? & <- & _). apply tunit_zero. }
      cbn [bind]. apply IH; auto; [lia|lia|]. intros t row Et. destruct (Inv t row Et) as (row' & E' & H).
      destruct (F1 t row' t_zero E') as (row2 & E2 & _ & H2); [now rewrite nth_error_map, E'|]. exists row2. split; [exact E2|].
      intros j Hj. rewrite H2, H by auto. destruct (Nat.eqb_spec j k) as [->|N].
      + replace (k <? S k) with true by (symmetry; apply Nat.ltb_lt; lia). rewrite E. reflexivity.
      + destruct (Nat.ltb_spec j k), (Nat.ltb_spec j (S k)); try lia; reflexivity.
    - cbn [bind]. apply IH; auto; [lia|]. intros t row Et. destruct (Inv t row Et) as (row' & E' & H). exists row'. split; [exact E'|].
      intros j Hj. rewrite H by auto. destruct (Nat.ltb_spec j k), (Nat.ltb_spec j (S k)); try lia; try reflexivity.
      assert (j = k) by lia. subst j. destruct (Z.eqb_spec (pr_ s k) (-1)); [contradiction|reflexivity]. }
  apply (A n 0 xs); auto. intros t row Et. exists row. split; [exact Et|]. reflexivity.
Qed.
(** Afterwards every link connected to the world is at the identity and every other link has the pose relative to its
    parent that it had before. *)
Theorem C45_delete_to_world xs : poses_of s xs -> exists ys, delete_to_world W s xs = Ok ys /\ poses_of s ys /\ length (tr_rows ys) = length (tr_rows xs) /\
  forall k row, nth_error (tr_rows xs) k = Some row -> exists row', nth_error (tr_rows ys) k = Some row' /\
    (forall i, nth_error (link_parents s) i = Some (-1)%Z -> nth_error row' i = Some t_zero) /\
    (forall i p x, nth_error (link_parents s) i = Some (Z.of_nat p) -> rel_pose_of s row i x -> rel_pose_of s row' i x) /\
    (forall i r xi xr, root_link s i r -> nth_error row i = Some xi -> nth_error row r = Some xr -> nth_error row' i = Some (t_mul xi (t_inv xr))).
Proof.
  intros P. destruct (delete_ok xs P) as (ys & E & PY & LY & F). exists ys. split; [exact E|]. split; [exact PY|]. split; [exact LY|].
  intros k row Ek. destruct (F k row Ek) as (row' & Ek' & H). exists row'. split; [exact Ek'|].
  assert (OK : row_ok row) by (destruct P as [_ P]; rewrite Forall_forall in P; apply P; eapply nth_error_In; eauto).
  assert (OK' : row_ok row') by (destruct PY as [_ PY]; rewrite Forall_forall in PY; apply PY; eapply nth_error_In; eauto).
  destruct OK as [LR UR], OK' as [LR' UR'].
  assert (RT : forall i, nth_error (link_parents s) i = Some (-1)%Z -> nth_error row' i = Some t_zero).
  { intros i Hp. assert (Hi : i < n) by (apply nth_error_Some; congruence). pose proof (pr_spec s i Hi) as PE. rewrite Hp in PE. injection PE as PE.
    specialize (H i Hi). unfold rel in H. rewrite <- PE in H. change (-1 =? -1)%Z with true in H. cbv iota in H. rewrite <- H. apply nth_nth_error. lia. }
  assert (RL : forall i p x, nth_error (link_parents s) i = Some (Z.of_nat p) -> rel_pose_of s row i x -> rel_pose_of s row' i x).
  { intros i p x Hp Hx. assert (Hi : i < n) by (apply nth_error_Some; congruence). rewrite rel_pose_of_iff in * by auto. subst x. rewrite H by auto.
    pose proof (pr_spec s i Hi) as PE. rewrite Hp in PE. injection PE as PE. rewrite <- PE. destruct (Z.eqb_spec (Z.of_nat p) (-1)); [lia|reflexivity]. }
  split; [exact RT|]. split; [exact RL|]. rewrite Forall_forall in UR, UR'. intros i r xi xr HR. revert xi. induction HR as [i Hp|i p r Hp HR IH]; intros xi Hxi Hxr.
  - rewrite Hxi in Hxr. injection Hxr as <-. rewrite t_mul_inv_r; auto. apply UR. eapply nth_error_In; eauto.
  - assert (Hi : i < n) by (apply nth_error_Some; congruence). pose proof (wf_topo _ _ WF i _ Hp) as TP. assert (Hpn : p < n) by lia.
    pose proof (nth_nth_error row p t_zero ltac:(lia)) as Hxp. set (xp := nth p row t_zero) in *.
    specialize (IH xp Hxp Hxr). assert (R : rel_pose_of s row i (t_mul xi (t_inv xp))). { right. exists p, xi, xp. auto. }
    apply (RL i p _ Hp) in R. destruct R as [[Hp' _]|(p' & yi & yp & Hp' & Hyi & Hyp & EQ)]; rewrite Hp in Hp'; injection Hp' as Hp'; [lia|].
    assert (p' = p) by lia. subst p'. rewrite IH in Hyp. injection Hyp as <-. rewrite Hyi. f_equal.
    assert (Ui : tunit xi) by (apply UR; eapply nth_error_In; eauto). assert (Up : tunit xp) by (apply UR; eapply nth_error_In; eauto).
    assert (Ur : tunit xr) by (apply UR; eapply nth_error_In; eauto). assert (Uy : tunit yi) by (apply UR'; eapply nth_error_In; eauto).
    set (c := t_mul xp (t_inv xr)) in *. assert (Uc : tunit c) by (unfold c; auto using tunit_mul, tunit_inv).
    rewrite <- (t_mul_0_r yi), <- (t_mul_inv_l c Uc), t_mul_assoc, <- EQ by auto using tunit_inv. unfold c.
    rewrite t_mul_assoc by auto using tunit_mul, tunit_inv. f_equal. rewrite <- t_mul_assoc, t_mul_inv_l, t_mul_0_r by auto using tunit_inv. reflexivity.
Qed.
End Rows.

(** ** Trajectories looked up by name *)
Section Raw.
Context {K L G O : Type} (W : widths) (s : System K L G O).
Hypothesis WF : wf W s.
Notation n := (num_links s).
Lemma run_push (f : option unit -> idx_map -> list (piece targ) -> list (list transform) -> result (unit * list (list transform))) im row (g : nat -> result (list transform)) :
  (forall y st i, i < n -> f y im (row i) st = do v <- g i; Ok (tt, st ++ [v])) ->
  forall m k y st, k + m = n -> run f im y st (map row (seq k m)) = do vs <- mapM g (seq k m); Ok (map (fun _ => tt) (seq k m), st ++ vs).
Proof.
  intros F. induction m as [|m IH]; intros k y st Hk; cbn [seq map run mapM]; [cbn; now rewrite app_nil_r|].
  rewrite F by lia. destruct (g k) as [v|e]; [|reflexivity]. cbn [bind fst snd]. rewrite IH by lia. destruct (mapM g (seq (S k) m)) as [vs|e]; [|reflexivity].
  cbn [bind fst snd]. now rewrite <- app_assoc.
Qed.
Definition lookup_link (data : raw) (t_eps : transform) (inv : bool) (i : nat) : result (list transform) :=
  do d <- dgetE String.eqb data (nm_ s i);
  Ok (map (fun x => t_mul x (t_inv t_eps)) (create_series (fst d) (if inv then map qinv (snd d) else snd d))).
Lemma raw_scan data eps inv : xs_from_raw W s data eps inv =
  do t_eps <- eps_transform data eps inv; do vs <- mapM (lookup_link data t_eps inv) (seq 0 n); stack_links vs.
Proof.
  unfold xs_from_raw. destruct (eps_transform data eps inv) as [te|e]; [|reflexivity]. cbn [bind].
  destruct (scan_name W s WF (raw_step data te inv) []) as (im & ->).
  rewrite (run_push (raw_step data te inv) im (fun i => [One (GStr (nm_ s i))]) (lookup_link data te inv)); [|intros y st i Hi; unfold raw_step, lookup_link; destruct (dgetE String.eqb data (nm_ s i)); reflexivity|lia].
  destruct (mapM _ _); reflexivity.
Qed.
Lemma stack_ok vs T : vs <> [] -> Forall (fun v => length v = T) vs -> stack_links vs = Ok (mkTraj (length vs) (map (fun k => map (fun x => nth k x t_zero) vs) (seq 0 T))).
Proof.
  intros N F. destruct vs as [|x0 r]; [contradiction|]. inversion F as [|? ? E _]; subst. cbn [stack_links].
  replace (forallb _ _) with true; [reflexivity|]. symmetry. apply forallb_forall. rewrite Forall_forall in F. intros x Hx. apply Nat.eqb_eq. now apply F.
Qed.

(** The recorded pose of a link at time [k]. *)
Definition recorded (data : raw) (inv : bool) (nm : string) (k : nat) (x : transform) : Prop :=
  exists ps qs q, dget String.eqb data nm = Some (ps, qs) /\ nth_error qs k = Some q /\ t_rot x = (if inv then qinv q else q) /\
    match ps with Some ps => nth_error ps k = Some (t_pos x) | None => t_pos x = vzero end.
(** The recording has data over [T] steps for every link. *)
Definition covers (data : raw) (T : nat) : Prop := forall nm, In nm (link_names s) ->
  exists ps qs, dget String.eqb data nm = Some (ps, qs) /\ length qs = T /\ match ps with Some ps => length ps = T | None => True end.
Lemma create_length ps qs T : length qs = T -> match ps with Some p => length p = T | None => True end -> length (create_series ps qs) = T.
Proof. intros H1 H2. unfold create_series. destruct ps; [rewrite zipwith_length|rewrite map_length]; lia. Qed.

Lemma lookup_ok data T te inv : 0 < n -> covers data T -> exists vs, mapM (lookup_link data te inv) (seq 0 n) = Ok vs /\ length vs = n /\ vs <> [] /\
  Forall (fun v => length v = T) vs /\
  forall i nm k x, nth_error (link_names s) i = Some nm -> recorded data inv nm k x -> nth k (nth i vs []) t_zero = t_mul x (t_inv te) /\ k < T.
Proof.
  intros Hn C. set (Q := fun i v => length v = T /\ forall k x, recorded data inv (nm_ s i) k x -> nth k v t_zero = t_mul x (t_inv te) /\ k < T).
  destruct (mapM_rel (lookup_link data te inv) Q (seq 0 n)) as (vs & E & F).
  { intros i Hi. apply in_seq in Hi. assert (Hin : i < n) by lia. destruct (C (nm_ s i)) as (ps & qs & D & Lq & Lp); [eapply nth_error_In; eapply (nm_spec W s WF); eauto|].
    unfold lookup_link, dgetE. rewrite D. cbn [bind fst snd]. eexists. split; [reflexivity|]. split.
    - rewrite map_length. apply create_length; auto. destruct inv; rewrite ?map_length; auto.
    - intros k x (ps' & qs' & q & D' & Eq & Er & Ep). rewrite D in D'. injection D' as <- <-. assert (Hk : k < T) by (rewrite <- Lq; apply nth_error_Some; congruence). split; [|exact Hk].
      apply nth_error_nth. rewrite nth_error_map. assert (X : nth_error (create_series ps (if inv then map qinv qs else qs)) k = Some x); [|now rewrite X].
      assert (Eq' : nth_error (if inv then map qinv qs else qs) k = Some (t_rot x)) by (rewrite Er; destruct inv; [rewrite nth_error_map, Eq|]; auto).
      destruct x as [xp xr]. cbn [t_pos t_rot] in *. unfold create_series. destruct ps as [ps|].
      + rewrite nth_error_zipwith, Ep, Eq'. reflexivity.
      + rewrite nth_error_map, Eq', Ep. reflexivity. }
  pose proof (Forall2_length _ _ _ F) as LL. rewrite seq_length in LL. exists vs. split; [exact E|]. split; [lia|]. split; [intros ->; cbn in LL; lia|].
  assert (FQ : forall i, i < n -> exists v, nth_error vs i = Some v /\ Q i v).
  { intros i Hi. destruct (Forall2_nth _ _ _ F i i) as (b & Hb & Qb); [rewrite nth_error_nth' with (d := 0) by (now rewrite seq_length); now rewrite seq_nth|]. eauto. }
  split.
  - apply Forall_forall. intros v Hv. apply In_nth_error in Hv. destruct Hv as (i & Hv). destruct (FQ i) as (v' & Hv' & [Lv _]); [assert (i < length vs) by (apply nth_error_Some; congruence); lia|]. congruence.
  - intros i nm k x Hnm R. assert (Hi : i < n) by (unfold num_links; rewrite <- (wf_names _ _ WF); apply nth_error_Some; congruence). pose proof (nm_spec W s WF i Hi) as NE. rewrite Hnm in NE. injection NE as ->.
    destruct (FQ i Hi) as (v & Hv & [_ Qv]). rewrite (nth_error_nth _ _ [] Hv). now apply Qv.
Qed.
(** A recording is turned into the poses of the links in the order of the system, relative to the start pose of the
    chosen frame. *)
Theorem C45_xs_from_raw data T eps inv : 0 < n -> covers data T ->
  (forall e, eps = Some e -> exists x, recorded data inv e 0 x /\ exists ps qs, dget String.eqb data e = Some (Some ps, qs)) ->
  exists ys te, xs_from_raw W s data eps inv = Ok ys /\ match eps with Some e => recorded data inv e 0 te | None => te = t_zero end /\
    tr_links ys = n /\ length (tr_rows ys) = T /\ Forall (fun row => length row = n) (tr_rows ys) /\
    (forall i nm k x, nth_error (link_names s) i = Some nm -> recorded data inv nm k x ->
       exists row, nth_error (tr_rows ys) k = Some row /\ nth_error row i = Some (t_mul x (t_inv te))).
Proof.
  intros Hn C HE. rewrite raw_scan.
  assert (TE : exists te, eps_transform data eps inv = Ok te /\ match eps with Some e => recorded data inv e 0 te | None => te = t_zero end).
  { destruct eps as [e|]; [|exists t_zero; auto]. destruct (HE e eq_refl) as (x & (ps' & qs' & q & D' & Eq & Er & Ep) & ps & qs & D). rewrite D in D'. injection D' as <- <-.
    cbn [eps_transform]. unfold dgetE. rewrite D. cbn [bind]. destruct ps as [|p0 ps]; [discriminate|]. destruct qs as [|q0 qs]; [discriminate|]. cbn in Eq, Ep. injection Eq as <-. injection Ep as ->.
    eexists. split; [reflexivity|]. exists (Some (t_pos x :: ps)), (q0 :: qs), q0. cbn. auto. }
  destruct TE as (te & -> & HT). cbn [bind]. destruct (lookup_ok data T te inv Hn C) as (vs & -> & Lv & Nv & Fv & V). cbn [bind]. rewrite (stack_ok vs T Nv Fv).
  do 2 eexists. split; [reflexivity|]. cbn [tr_links tr_rows]. split; [exact HT|]. split; [exact Lv|]. split; [now rewrite map_length, seq_length|].
  split; [apply Forall_forall; intros row Hr; apply in_map_iff in Hr; destruct Hr as (k & <- & _); now rewrite map_length|].
  intros i nm k x Hnm R. destruct (V i nm k x Hnm R) as [E Hk]. eexists. rewrite nth_map_seq by auto. split; [reflexivity|]. rewrite nth_error_map.
  assert (Hi : i < length vs) by (rewrite Lv; unfold num_links; rewrite <- (wf_names _ _ WF); apply nth_error_Some; congruence). rewrite (nth_nth_error vs i [] Hi). cbn [option_map]. now rewrite E.
Qed.
(** In particular the chosen frame starts at the identity. *)
Theorem C45_eps_frame data T e inv i : 0 < n -> covers data T -> nth_error (link_names s) i = Some e ->
  (exists x, tunit x /\ recorded data inv e 0 x /\ exists ps qs, dget String.eqb data e = Some (Some ps, qs)) ->
  exists ys row, xs_from_raw W s data (Some e) inv = Ok ys /\ nth_error (tr_rows ys) 0 = Some row /\ nth_error row i = Some t_zero.
Proof.
  intros Hn C Hi (x & U & R & D). destruct (C45_xs_from_raw data T (Some e) inv Hn C) as (ys & te & E & HT & _ & _ & _ & V); [intros ? [= <-]; eauto|].
  destruct (V i e 0 x Hi R) as (row & Er & Ex). exists ys, row. split; [exact E|]. split; [exact Er|]. rewrite Ex. f_equal.
  assert (te = x); [|subst te; now apply t_mul_inv_r]. destruct R as (ps & qs & q & D1 & E1 & R1 & P1), HT as (ps' & qs' & q' & D2 & E2 & R2 & P2). rewrite D1 in D2. injection D2 as <- <-.
  rewrite E1 in E2. injection E2 as <-. apply transform_ext; [|congruence]. destruct ps; congruence.
Qed.
Theorem C45_raw_unknown data eps inv : (exists nm, In nm (link_names s) /\ dget String.eqb data nm = None) -> exists e, xs_from_raw W s data eps inv = Err e.
Proof.
  intros (nm & I & D). rewrite raw_scan. destruct (eps_transform data eps inv) as [te|e]; [|cbn; eauto]. cbn [bind].
  apply In_nth_error in I. destruct I as (i & I). assert (Hi : i < n) by (unfold num_links; rewrite <- (wf_names _ _ WF); apply nth_error_Some; congruence).
  destruct (mapM (lookup_link data te inv) (seq 0 n)) as [vs|e] eqn:E; [|cbn; eauto]. exfalso. apply mapM_Ok_iff in E.
  destruct (Forall2_nth _ _ _ E i i) as (b & _ & Qb); [rewrite nth_error_nth' with (d := 0) by (now rewrite seq_length); now rewrite seq_nth|].
  unfold lookup_link, dgetE in Qb. pose proof (nm_spec W s WF i Hi) as NE. rewrite I in NE. injection NE as NE. rewrite <- NE, D in Qb. discriminate.
Qed.

Section Match.
Context (sxs : System K L G O) (xs : traj).
Hypothesis WFx : wf W sxs.
(** Matching a recording of a larger system to a smaller one picks the trajectory of the link with the same name. *)
Theorem C45_match : 0 < n -> poses_of sxs xs -> (forall nm, In nm (link_names s) -> In nm (link_names sxs)) ->
  exists ys, match_xs W s xs sxs = Ok ys /\ tr_links ys = n /\ length (tr_rows ys) = length (tr_rows xs) /\ Forall (fun row => length row = n) (tr_rows ys) /\
    forall i j nm k row x, nth_error (link_names s) i = Some nm -> nth_error (link_names sxs) j = Some nm -> nth_error (tr_rows xs) k = Some row -> nth_error row j = Some x ->
      exists row', nth_error (tr_rows ys) k = Some row' /\ nth_error row' i = Some x.
Proof.
  intros Hn [PL PR] Sub. unfold match_xs, check_series, assert_. rewrite PL, Nat.eqb_refl. cbn [bind].
  set (ent := fun j => (nm_ sxs j, (Some (map t_pos (link_traj xs j)), map t_rot (link_traj xs j)))).
  assert (E : mapM (fun name => do i <- name_to_idx sxs name; Ok (name, (Some (map t_pos (link_traj xs i)), map t_rot (link_traj xs i)))) (link_names sxs) = Ok (map ent (seq 0 (num_links sxs)))).
  { rewrite (as_map sxs (link_names sxs) ""%string (wf_names _ _ WFx)). apply mapM_Ok_iff.
    assert (A : forall l, (forall j, In j l -> j < num_links sxs) -> Forall2 (fun a b => (do i <- name_to_idx sxs a; Ok (a, (Some (map t_pos (link_traj xs i)), map t_rot (link_traj xs i)))) = Ok b) (map (fun i => nth i (link_names sxs) ""%string) l) (map ent l)).
    { induction l as [|j l IH]; intros H; cbn [map]; constructor; [|apply IH; intros; apply H; now right].
      unfold name_to_idx. rewrite (proj2 (indexS_NoDup (nth j (link_names sxs) ""%string) (link_names sxs) j (wf_unique _ _ WFx))); [reflexivity|]. apply (nm_spec W sxs WFx). apply H. now left. }
    apply A. intros j Hj. apply in_seq in Hj. lia. }
  rewrite E. cbn [bind].
  assert (G1 : forall j nm, nth_error (link_names sxs) j = Some nm -> dget String.eqb (map ent (seq 0 (num_links sxs))) nm = Some (Some (map t_pos (link_traj xs j)), map t_rot (link_traj xs j))).
  { intros j nm Hj. assert (Hl : j < num_links sxs) by (unfold num_links; rewrite <- (wf_names _ _ WFx); apply nth_error_Some; congruence). pose proof (nm_spec W sxs WFx j Hl) as NE. rewrite Hj in NE. injection NE as ->.
    apply dget_In.
    - rewrite map_map. cbn [ent fst]. change (fun x => nm_ sxs x) with (fun i => nth i (link_names sxs) ""%string). rewrite <- (as_map sxs (link_names sxs) ""%string (wf_names _ _ WFx)). apply WFx.
    - apply in_map_iff. exists j. split; [reflexivity|]. apply in_seq. lia. }
  destruct (C45_xs_from_raw (map ent (seq 0 (num_links sxs))) (length (tr_rows xs)) None false Hn) as (ys & te & -> & -> & LY & RY & FY & V).
  - intros nm I. apply Sub in I. apply In_nth_error in I. destruct I as (j & Hj). do 2 eexists. split; [exact (G1 j nm Hj)|]. now rewrite !map_length, link_traj_length.
  - discriminate.
  - exists ys. split; [reflexivity|]. split; [exact LY|]. split; [exact RY|]. split; [exact FY|]. intros i j nm k row x Hi Hj Hk Hx.
    destruct (V i nm k x Hi) as (row' & E1 & E2); [|exists row'; split; [exact E1|]; rewrite E2, t_inv_0; f_equal; apply t_mul_0_r].
    do 3 eexists. split; [exact (G1 j nm Hj)|]. rewrite !nth_error_map, (link_traj_nth xs j k row x Hk Hx). cbn [option_map]. auto.
Qed.
Theorem C45_match_unknown : (exists nm, In nm (link_names s) /\ ~ In nm (link_names sxs)) -> exists e, match_xs W s xs sxs = Err e.
Proof.
  intros (nm & I & NI). unfold match_xs. destruct (check_series sxs xs); [|cbn; eauto]. cbn [bind]. destruct (mapM _ _) as [data|e] eqn:E; [|cbn; eauto]. cbn [bind].
  apply C45_raw_unknown. exists nm. split; [exact I|]. apply mapM_Ok_iff in E. destruct (dget String.eqb data nm) as [v|] eqn:D; [|reflexivity]. exfalso. apply NI.
  clear - E D. induction E as [|a b l l' H E IH]; [discriminate|]. destruct b as [c w]. cbn [dget] in D. apply bind_Ok in H. destruct H as (? & _ & H). injection H as -> _.
  destruct (String.eqb_spec nm c); [left; auto|right; auto].
Qed.
End Match.
End Raw.

(** ** Examples: two time steps of the demo system (base, arm on base, hand on arm, tool on base) *)
Local Open Scope R_scope.
Definition demo_motion : traj := mkTraj 4
  [[Tr (V3 1 0 0) qtilt; Tr (V3 2 0 0) qone; Tr (V3 2 1 0) qtilt; Tr (V3 1 0 5) qone];
   [Tr (V3 1 3 0) qone; Tr (V3 2 3 1) qtilt; Tr (V3 2 1 7) qtilt; Tr (V3 0 0 5) qtilt]].
Lemma demo_motion_ok : poses_of demo demo_motion.
Proof.
  pose proof qtilt_unit as U. assert (U1 := qunit_one).
  split; [reflexivity|]. cbn [demo_motion tr_rows]. repeat apply Forall_cons; try apply Forall_nil; (split; [reflexivity|]);
    repeat (apply Forall_cons; [assumption|]); apply Forall_nil.
Qed.
Example C45_example : exists ys row,
  (do t12 <- unzip_xs builtin_widths demo demo_motion; zip_xs builtin_widths demo (fst t12) (snd t12)) = Ok demo_motion /\
  delete_to_world builtin_widths demo demo_motion = Ok ys /\ nth_error (tr_rows ys) 1 = Some row /\
  nth_error row 0 = Some t_zero /\ nth_error row 2 = Some (Tr (V3 1 (-2) 7) qtilt).
Proof.
  destruct (C45_delete_to_world builtin_widths demo demo_wf demo_motion demo_motion_ok) as (ys & E & _ & _ & F).
  destruct (F 1%nat _ eq_refl) as (row & Er & R & _ & H). exists ys, row. split; [exact (C45_zip_unzip builtin_widths demo demo_wf demo_motion demo_motion_ok)|].
  split; [exact E|]. split; [exact Er|]. split; [now apply R|].
  rewrite (H 2%nat 0%nat (Tr (V3 2 1 7) qtilt) (Tr (V3 1 3 0) qone)); [|eapply root_up with (p := 1%nat); [reflexivity|]; eapply root_up with (p := 0%nat); [reflexivity|now apply root_here]|reflexivity|reflexivity].
  f_equal. apply transform_ext; unfold qtilt; vunfold; f_equal; field.
Qed.
Example C45_match_example : exists ys row, match_xs builtin_widths demo demo_motion demo = Ok ys /\ nth_error (tr_rows ys) 1 = Some row /\
  nth_error row 3 = Some (Tr (V3 0 0 5) qtilt).
Proof.
  destruct (C45_match builtin_widths demo demo_wf demo demo_motion demo_wf) as (ys & E & _ & _ & _ & F); [cbn; lia|exact demo_motion_ok|auto|].
  destruct (F 3%nat 3%nat "tool"%string 1%nat _ (Tr (V3 0 0 5) qtilt) eq_refl eq_refl eq_refl eq_refl) as (row & Er & Ex). eauto.
Qed.
Example C58_example : exists y qs, rel_pose builtin_widths demo demo_motion (Some demo) = Ok y /\ map fst y = ["arm"; "hand"; "tool"]%string /\
  dget String.eqb y "arm"%string = Some qs /\ nth_error qs 0 = Some qtilt.
Proof.
  assert (FR : full_rows demo demo_motion) by (repeat apply Forall_cons; try apply Forall_nil; reflexivity).
  destruct (C58_rel_pose builtin_widths demo demo demo_motion demo_wf eq_refl FR) as (y & E & Ky & H).
  { intros i p nm _ _ [A|A]; eapply nth_error_In; exact A. }
  destruct (H 1%nat 0%nat "arm"%string "base"%string eq_refl eq_refl eq_refl) as (qs & tr & trp & G1 & T & Tp & Lq & V).
  destruct T as (i & Hi & Lt & Ht), Tp as (p & Hp & Ltp & Htp).
  assert (i = 1%nat) by (refine (NoDup_nth_error_inj _ _ _ _ (wf_unique _ _ demo_wf) Hi _); reflexivity). assert (p = 0%nat) by (refine (NoDup_nth_error_inj _ _ _ _ (wf_unique _ _ demo_wf) Hp _); reflexivity). subst i p.
  destruct qs as [|q0 qs]; [discriminate|]. destruct (V 0%nat q0 _ _ eq_refl (Ht 0%nat _ _ eq_refl eq_refl) (Htp 0%nat _ _ eq_refl eq_refl)) as [-> _].
  eexists y, _. split; [exact E|]. split; [rewrite Ky; reflexivity|]. split; [exact G1|]. cbn [nth_error t_rot]. f_equal. unfold qtilt. vring.
Qed.
Example C58_root_example : exists y, root_incl builtin_widths demo demo_motion demo true = Ok y /\ map fst y = ["base"]%string.
Proof.
  assert (FR : full_rows demo demo_motion) by (repeat apply Forall_cons; try apply Forall_nil; reflexivity).
  destruct (C58_root builtin_widths demo demo demo_motion demo_wf true true FR) as (y & E & Ky & _); [intros i nm _ A; eapply nth_error_In; exact A|].
  exists y. split; [exact E|]. rewrite Ky. reflexivity.
Qed.
Print Assumptions C45_zip_unzip.
Print Assumptions C45_delete_to_world.
Print Assumptions C45_match.
Print Assumptions C58_rel_pose.
Print Assumptions C58_inclination.
