(** * The recursive Newton-Euler algorithm on a tree. *)
From Coq Require Import Reals Lra String ZArith Lia Bool List.
From Verif Require Import Prelude M_Sys S_Sys P_Scan P_Run M_Math P_Math M_Geom P_Geom M_Joint M_Kin M_Dyn S_Kin P_Joint P_Kin P_Mat S_Dyn P_Dyn P_Mass.
Import ListNotations.

Lemma getR_app a b k : getR (a ++ b) k = if k <? length a then getR a k else getR b (k - length a).
Proof. unfold getR. destruct (Nat.ltb_spec k (length a)); [now rewrite app_nth1|now rewrite app_nth2 by lia]. Qed.
Lemma dgetE_some {V} (d : list (Z * V)) k v : dget Z.eqb d k = Some v -> dgetE Z.eqb d k = Ok v.
Proof. unfold dgetE. now intros ->. Qed.
Lemma m_cross_self v : m_cross v v = szero.
Proof. destruct v as [[] []]. vring. Qed.

Section Rnea.
Context {P O : Type}.
Variable W : widths.
Variable jt : joint_table P.
Notation link := (plink (params P)).
Notation rsys := (System R link geometry O).
Variable s : rsys.
Variables qs ds : list nat.
Hypothesis LN : lean W s qs ds.
Hypothesis JK : joints_known jt s.
Hypothesis MF : motions_fit W jt.
Notation n := (num_links s).
Notation nd := (list_sum ds).
Notation msof := (ms_of jt s).
Notation Xf := (Xs s).
Notation Iof := (It s).

Lemma PR i : i < n -> (-1 <= par s i < Z.of_nat i)%Z.
Proof. intros. now apply (par_range W s qs ds LN). Qed.

(** Accelerations for the world acceleration [g]. *)
Definition is_acc (g : spatial) (vJ aJ v a : nat -> spatial) : Prop := forall i, i < n ->
  a i = sadd (sadd (t_motion (Xf i) (if (par s i =? -1)%Z then g else a (Z.to_nat (par s i)))) (aJ i)) (m_cross (v i) (vJ i)).
Lemma acc_exists g vJ aJ v : exists a, is_acc g vJ aJ v a.
Proof.
  set (src i := sadd (sadd (if (par s i =? -1)%Z then t_motion (Xf i) g else szero) (aJ i)) (m_cross (v i) (vJ i))).
  exists (fun i => field (par s) Xf (S i) src i). intros i Hi. rewrite (field_is n (par s) Xf PR src i Hi).
  unfold src at 1, up. destruct (par s i =? -1)%Z.
  - apply sadd_0_r.
  - generalize (t_motion (Xf i) (field (par s) Xf (S (Z.to_nat (par s i))) src (Z.to_nat (par s i)))).
    generalize (m_cross (v i) (vJ i)). destruct (aJ i) as [[] []]. intros [[] []] [[] []]. vring.
Qed.
Lemma acc_unique g vJ aJ v a b : is_acc g vJ aJ v a -> is_acc g vJ aJ v b -> forall i, i < n -> a i = b i.
Proof.
  intros A B i. induction i as [i IH] using lt_wf_ind. intros Hi. rewrite (A i Hi), (B i Hi).
  destruct (Z.eqb_spec (par s i) (-1)); auto. pose proof (PR i Hi). rewrite (IH (Z.to_nat (par s i))) by lia. reflexivity.
Qed.

Definition frc (v a : nat -> spatial) (i : nat) : spatial := sadd (i_mul (Iof i) (a i)) (m_cross_star (v i) (i_mul (Iof i) (v i))).

Lemma motion_ok x i : length x = nd -> i < n -> jcalc_motion jt (typ_ s i) (cut ds x i) (pl_params (lnk s i)) = Ok (jv ds msof (getR x) i).
Proof.
  intros Hx Hi. destruct (known W jt s qs ds LN JK i Hi) as (pr & jm & A & B). unfold jcalc_motion, joint_lookup. rewrite A, B. cbn [bind]. f_equal.
  unfold jv. rewrite <- (cut_get W s qs ds LN x i Hx Hi). unfold ms_of. now rewrite A, B.
Qed.

Section Run.
Variables qd qdd : list R.
Hypothesis Hqd : length qd = nd.
Hypothesis Hqdd : length qdd = nd.
Variable g : spatial.
Variables v a : nat -> spatial.
Hypothesis Hv : is_field n (par s) Xf (jv ds msof (getR qd)) v.
Hypothesis Ha : is_acc g (jv ds msof (getR qd)) (jv ds msof (getR qdd)) v a.

Definition has (d : list (Z * spatial)) (k : nat) (f : nat -> spatial) : Prop := forall j, j < k -> dget Z.eqb d (Z.of_nat j) = Some (f j).
Lemma has_set d k f : has d k f -> has (dset Z.eqb d (Z.of_nat k) (f k)) (S k) f.
Proof. intros H j Hj. rewrite dget_dset. destruct (Z.eqb_spec (Z.of_nat j) (Z.of_nat k)); [assert (j = k) by lia; subst j; reflexivity|]. apply H. lia. Qed.
Definition frow (i : nat) : list (piece (arg P)) :=
  [One (AInt (Z.of_nat i)); col AInt (link_parents s) (-1)%Z i; col AStr (link_types s) ""%string i; numcol ds qd i; numcol ds qdd i; col ALink (links s) dlink i].

Lemma fwd_step y im k st : k < n -> has (d_vel st) k v -> has (d_acc st) k a -> has (d_fs st) k (frc v a) ->
  exists st', id_forward jt g y im (frow k) st = Ok (tt, st') /\
    has (d_vel st') (S k) v /\ has (d_acc st') (S k) a /\ has (d_fs st') (S k) (frc v a).
Proof.
  intros Hk A B C. unfold frow, id_forward, col, numcol. rewrite !nums_map.
  change (nth k (link_types s) ""%string) with (typ_ s k). change (nth k (links s) dlink) with (lnk s k).
  change (nth k (link_parents s) (-1)%Z) with (par s k).
  rewrite (motion_ok qd k Hqd Hk), (motion_ok qdd k Hqdd Hk). cbn [bind].
  pose proof (PR k Hk) as Rk.
  match goal with |- context [bind ?e _] => assert (E : e = Ok (v k, a k)) end.
  { rewrite (Ha k Hk), (Hv k Hk). unfold up, Xs. destruct (Z.eqb_spec (par s k) (-1)) as [E|E].
    - rewrite sadd_0_r, m_cross_self, sadd_0_r. reflexivity.
    - pose proof (dgetE_some _ _ _ (A (Z.to_nat (par s k)) ltac:(lia))) as L1. pose proof (dgetE_some _ _ _ (B (Z.to_nat (par s k)) ltac:(lia))) as L2.
      rewrite Z2Nat.id in L1, L2 by lia. rewrite L1, L2. cbn [bind]. reflexivity. }
  rewrite E. cbn [bind]. eexists. split; [reflexivity|]. cbn [d_vel d_acc d_fs].
  split; [now apply has_set|]. split; [now apply has_set|]. exact (has_set _ _ _ C).
Qed.
Lemma fwd_run im : forall m k st y, k + m = n -> has (d_vel st) k v -> has (d_acc st) k a -> has (d_fs st) k (frc v a) ->
  exists outs st', run (id_forward jt g) im y st (map frow (seq k m)) = Ok (outs, st') /\ has (d_fs st') n (frc v a).
Proof.
  induction m as [|m IH]; intros k st y Hk A B C; cbn [seq map run].
  - exists [], st. split; auto. replace n with k by lia. exact C.
  - destruct (fwd_step y im k st ltac:(lia) A B C) as (st' & E & A' & B' & C'). rewrite E. cbn [bind fst snd].
    destruct (IH (S k) st' (Some tt) ltac:(lia) A' B' C') as (outs & st2 & R1 & R2). rewrite R1. cbn [bind fst snd]. eauto.
Qed.
End Run.

Definition brow (i : nat) : list (piece (arg P)) :=
  [One (AInt (Z.of_nat i)); col AInt (link_parents s) (-1)%Z i; col AStr (link_types s) ""%string i;
   col ATr (map (fun l => t_inv (pl_t l)) (links s)) t_zero i; col ALink (links s) dlink i].
Definition taus_of (Fc : nat -> spatial) (i : nat) : list R := map (fun m => m_dot m (Fc i)) (msof i).

Hypothesis UT : unit_transforms s.
Lemma bwd_run im : forall k d T y F, k <= n -> has d n F ->
  exists outs d' Fc, run (id_backward jt) im y (d, T) (map brow (rev (seq 0 k))) = Ok (outs, (d', map (taus_of Fc) (seq 0 k) ++ T)) /\
    forall sv u, is_field n (par s) Xf sv u ->
      (sumR k (fun i => m_dot (u i) (F i)) = sumR k (fun i => m_dot (sv i) (Fc i)))%R.
Proof.
  induction k as [|k IH]; intros d T y F Hk Hd.
  - exists [], d, F. split; [reflexivity|]. intros. reflexivity.
  - rewrite rev_seq_S. cbn [map run]. assert (Hkn : k < n) by lia. pose proof (PR k Hkn) as Rk.
    set (F1 := fun j => if (par s k =? -1)%Z then F j else
        if j =? Z.to_nat (par s k) then sadd (F j) (t_force (t_inv (Xf k)) (F k)) else F j).
    assert (ST : exists d1, id_backward jt y im (brow k) (d, T) = Ok (tt, (d1, taus_of F k :: T)) /\ has d1 n F1).
    { unfold brow, id_backward, col. change (nth k (link_types s) ""%string) with (typ_ s k). change (nth k (links s) dlink) with (lnk s k).
      change (nth k (link_parents s) (-1)%Z) with (par s k). cbn [fst snd].
      rewrite (dgetE_some _ _ _ (Hd k Hkn)). cbn [bind].
      assert (J : jcalc_tau jt (typ_ s k) (F k) (pl_params (lnk s k)) = Ok (taus_of F k)).
      { destruct (known W jt s qs ds LN JK k Hkn) as (pr & jm & A & B). unfold jcalc_tau, joint_lookup, taus_of, ms_of. rewrite A, B. cbn [bind].
        now rewrite map_map. }
      rewrite J. cbn [bind]. unfold F1. destruct (Z.eqb_spec (par s k) (-1)) as [E|E].
      - exists d. split; [reflexivity|]. exact Hd.
      - set (p := Z.to_nat (par s k)). assert (Hp : p < k) by (unfold p; lia).
        replace (par s k) with (Z.of_nat p) by (unfold p; lia).
        rewrite (dgetE_some _ _ _ (Hd p ltac:(lia))). cbn [bind]. eexists. split; [reflexivity|].
        intros j Hj. rewrite dget_dset. destruct (Z.eqb_spec (Z.of_nat j) (Z.of_nat p)) as [E2|E2].
        + assert (j = p) by lia. subst j. rewrite Nat.eqb_refl. do 3 f_equal.
          assert (N : nth_error (map (fun l : link => t_inv (pl_t l)) (links s)) k = Some (t_inv (Xf k))).
          { rewrite nth_error_map, (lnk_spec W s qs ds LN k Hkn). reflexivity. }
          exact (nth_error_nth _ _ _ N).
        + destruct (Nat.eqb_spec j p); [lia|]. now apply Hd. }
    destruct ST as (d1 & ST & Hd1). rewrite ST. cbn [bind fst snd].
    destruct (IH d1 (taus_of F k :: T) (Some tt) F1 ltac:(lia) Hd1) as (outs & d' & Fc & R1 & R2).
    rewrite R1. cbn [bind fst snd]. exists (tt :: outs), d', (fun i => if i =? k then F k else Fc i). split.
    + f_equal. f_equal. f_equal. rewrite seq_S, map_app, <- app_assoc. cbn [map app Nat.add]. f_equal.
      * apply map_ext_in. intros i Hi. apply in_seq in Hi. unfold taus_of. destruct (Nat.eqb_spec i k); [lia|reflexivity].
      * f_equal. unfold taus_of. now rewrite Nat.eqb_refl.
    + intros sv u Hu. cbn [sumR]. rewrite Nat.eqb_refl.
      rewrite (sumR_ext k (fun i => m_dot (sv i) (if i =? k then F k else Fc i)) (fun i => m_dot (sv i) (Fc i))).
      2:{ intros i Hi. destruct (Nat.eqb_spec i k); [lia|reflexivity]. }
      rewrite <- (R2 sv u Hu). rewrite (Hu k Hkn) at 1. rewrite m_dot_add_l. unfold up.
      unfold F1. destruct (Z.eqb_spec (par s k) (-1)) as [E|E]; [rewrite m_dot_zero_l; ring|].
      set (p := Z.to_nat (par s k)). assert (Hp : p < k) by (unfold p; lia).
      rewrite (sumR_ext k (fun i => m_dot (u i) (if i =? p then sadd (F i) (t_force (t_inv (Xf k)) (F k)) else F i))
         (fun i => (m_dot (u i) (F i) + (if i =? p then m_dot (u p) (t_force (t_inv (Xf k)) (F k)) else 0))%R)).
      2:{ intros i Hi. destruct (Nat.eqb_spec i p); [subst i; apply m_dot_add_r|ring]. }
      rewrite sumR_add, (sumR_delta k p (fun i => if i =? p then m_dot (u p) (t_force (t_inv (Xf k)) (F k)) else 0%R)); auto.
      2:{ intros j _ Hj. cbv beta. destruct (Nat.eqb_spec j p); [contradiction|reflexivity]. }
      rewrite Nat.eqb_refl. rewrite t_force_adj by (apply tunit_inv, (Xs_unit W s qs ds LN UT k Hkn)).
      rewrite t_inv_inv by apply (Xs_unit W s qs ds LN UT k Hkn). ring.
Qed.

Lemma taus_concat Fc : forall k, k <= n ->
  length (concat (map (taus_of Fc) (seq 0 k))) = off ds k /\
  forall x, (sumR (off ds k) (fun b => x b * getR (concat (map (taus_of Fc) (seq 0 k))) b) = sumR k (fun i => m_dot (jv ds msof x i) (Fc i)))%R.
Proof.
  induction k as [|k IH]; intros Hk; [split; reflexivity|]. assert (Hkn : k < n) by lia. destruct (IH ltac:(lia)) as [L S].
  rewrite (off_S n ds (ds_len W s qs ds LN)) by auto. rewrite seq_S, map_app, concat_app. cbn [map concat Nat.add]. rewrite app_nil_r.
  assert (LT : length (taus_of Fc k) = wd ds k) by (unfold taus_of; rewrite map_length, (ms_len W jt s qs ds LN JK MF k Hkn); reflexivity).
  split; [rewrite app_length, L, LT; reflexivity|]. intros x. rewrite sumR_app. cbn [sumR]. f_equal.
  - rewrite <- S. apply sumR_ext. intros b Hb. rewrite getR_app, L. destruct (Nat.ltb_spec b (off ds k)); [reflexivity|lia].
  - rewrite m_dot_comm. rewrite (dot_jv n ds msof (ms_len W jt s qs ds LN JK MF)) by auto. apply sumR_ext. intros c Hc.
    rewrite getR_app, L. destruct (Nat.ltb_spec (off ds k + c) (off ds k)); [lia|].
    replace (off ds k + c - off ds k) with c by lia. unfold getR, taus_of. rewrite (nth_error_nth (map _ (msof k)) c 0%R (x := m_dot (nth c (msof k) szero) (Fc k))).
    + rewrite (m_dot_comm (Fc k)). ring.
    + rewrite nth_error_map, (nth_error_nth' _ szero); [reflexivity|]. rewrite (ms_len W jt s qs ds LN JK MF k Hkn). exact Hc.
Qed.

Theorem rnea_spec qd qdd v a : length qd = nd -> length qdd = nd -> n <> 0 ->
  is_field n (par s) Xf (jv ds msof (getR qd)) v ->
  is_acc (Sp vzero (v3_of (gravity s))) (jv ds msof (getR qd)) (jv ds msof (getR qdd)) v a ->
  exists tau, inverse_dynamics W jt s qd qdd = Ok tau /\ length tau = nd /\
    forall x u, is_field n (par s) Xf (jv ds msof x) u ->
      (sumR nd (fun b => x b * getR tau b) = sumR n (fun i => m_dot (u i) (frc v a i)))%R.
Proof.
  intros Hqd Hqdd Hn Hv Ha. unfold inverse_dynamics.
  set (im := mkIM (slices_from 0 qs) (slices_from 0 ds)).
  rewrite (scan_run W s qs ds) with (cs := [(fun i => One (AInt (Z.of_nat i))); col AInt (link_parents s) (-1)%Z; col AStr (link_types s) ""%string;
     numcol ds qd; numcol ds qdd; col ALink (links s) dlink]); try apply LN; try reflexivity.
  2:{ repeat apply Forall2_cons; [apply arg_ok_ints|now apply arg_ok_col|apply arg_ok_col, LN|now apply arg_ok_d|now apply arg_ok_d|apply arg_ok_col, LN|apply Forall2_nil]. }
  cbv zeta. fold im. change (map (fun i => map (fun c => c i) _) (seq 0 n)) with (map (frow qd qdd) (seq 0 n)).
  destruct (fwd_run qd qdd Hqd Hqdd _ v a Hv Ha im n 0 (mkRnea [] [] []) None eq_refl) as (outs & st' & R1 & R2);
    [intros j Hj; lia|intros j Hj; lia|intros j Hj; lia|].
  rewrite R1. cbn [bind fst snd].
  rewrite (scan_run W s qs ds) with (cs := [(fun i => One (AInt (Z.of_nat i))); col AInt (link_parents s) (-1)%Z; col AStr (link_types s) ""%string;
     col ATr (map (fun l => t_inv (pl_t l)) (links s)) t_zero; col ALink (links s) dlink]); try apply LN; try reflexivity.
  2:{ repeat apply Forall2_cons; [apply arg_ok_ints|now apply arg_ok_col|apply arg_ok_col, LN| |apply arg_ok_col, LN|apply Forall2_nil].
      apply arg_ok_col. rewrite map_length. apply LN. }
  cbv zeta. fold im. change (map (fun i => map (fun c => c i) _) (rev (seq 0 n))) with (map brow (rev (seq 0 n))).
  destruct (bwd_run im n (d_fs st') [] None (frc v a) (le_n n) R2) as (o2 & d' & Fc & R3 & R4). rewrite R3. cbn [bind fst snd].
  rewrite app_nil_r. destruct (taus_concat Fc n (le_n n)) as [L S]. rewrite (off_n n ds (ds_len W s qs ds LN)) in *.
  exists (concat (map (taus_of Fc) (seq 0 n))). split.
  - unfold M_Kin.concatenate. destruct n; [congruence|reflexivity].
  - split; [exact L|]. intros x u Hu. rewrite S. symmetry. now apply R4.
Qed.

End Rnea.
