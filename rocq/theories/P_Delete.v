(** * Proofs about delete_subsystem (C03, C04). *)
From Coq Require Import String ZArith Lia Bool FinFun List.
From Verif Require Import Prelude M_Sys M_Compose S_Sys P_Scan P_Sys.
Import ListNotations.
Local Open Scope Z_scope.

(** ** Descendants *)
Lemma topo_desc_le parents a i : topo parents -> descends parents a i -> (a <= i)%nat.
Proof. intros T H. induction H; [lia|]. apply T in H. lia. Qed.

Lemma descends_inv parents a i : descends parents a i ->
  i = a \/ exists p, nth_error parents i = Some (Z.of_nat p) /\ descends parents a p.
Proof. intros H; inversion H; subst; eauto. Qed.

Definition sub_step (sub : list Z) (ip : nat * Z) : list Z :=
  if memZ (snd ip) sub then sub ++ [Z.of_nat (fst ip)] else sub.

Lemma fsi_invariant parents k : topo parents -> forall suf pre sub,
  parents = pre ++ suf ->
  (forall z, In z sub <-> z = Z.of_nat k \/ exists i, z = Z.of_nat i /\ (i < length pre)%nat /\ descends parents k i) ->
  forall z, In z (fold_left sub_step (enum_from (length pre) suf) sub) <->
            z = Z.of_nat k \/ exists i, z = Z.of_nat i /\ (i < length parents)%nat /\ descends parents k i.
Proof.
  intros T. induction suf as [|p suf IH]; intros pre sub E I z.
  - simpl. rewrite app_nil_r in E. subst. apply I.
  - simpl. assert (Hn : nth_error parents (length pre) = Some p).
    { rewrite E, nth_error_app2, Nat.sub_diag by lia. reflexivity. }
    pose proof (T _ _ Hn) as Tp.
    replace (S (length pre)) with (length (pre ++ [p])) by (rewrite app_length; simpl; lia).
    apply IH.
    + rewrite <- app_assoc. auto.
    + clear z. intros z. unfold sub_step; simpl.
      assert (Hstep : In p sub <-> exists q, p = Z.of_nat q /\ descends parents k q).
      { rewrite I. split.
        - intros [->|(i & -> & _ & D)]; eauto. exists k. split; auto. constructor.
        - intros (q & -> & D). destruct (Nat.eq_dec q k) as [->|]; auto. right. exists q. repeat split; auto. lia. }
      rewrite app_length. simpl. destruct (memZ p sub) eqn:M.
      * apply memZ_In in M. apply Hstep in M. destruct M as (q & -> & D).
        rewrite in_app_iff, I. simpl. split.
        -- intros [[->|(i & -> & Hi & Di)]|[<-|[]]]; auto.
           ++ right. exists i. repeat split; auto. lia.
           ++ right. exists (length pre). repeat split; auto; [lia|]. econstructor; eauto.
        -- intros [->|(i & -> & Hi & Di)]; auto. destruct (Nat.eq_dec i (length pre)) as [->|]; auto.
           left. right. exists i. repeat split; auto. lia.
      * apply memZ_false in M. rewrite I. split.
        -- intros [->|(i & -> & Hi & Di)]; auto. right. exists i. repeat split; auto. lia.
        -- intros [->|(i & -> & Hi & Di)]; auto. destruct (Nat.eq_dec i (length pre)) as [->|].
           ++ apply descends_inv in Di. destruct Di as [->|(q & Hq & Dq)]; auto.
              exfalso. apply M, Hstep. exists q. split; auto. congruence.
           ++ right. exists i. repeat split; auto. lia.
Qed.

Lemma find_subsystem_indices_spec parents k z : topo parents -> (k < length parents)%nat ->
  (In z (find_subsystem_indices parents k) <->
   exists i, z = Z.of_nat i /\ (i < length parents)%nat /\ descends parents k i).
Proof.
  intros T Hk. unfold find_subsystem_indices, enum.
  rewrite (fsi_invariant parents k T parents [] [Z.of_nat k]); simpl; auto.
  - split; [|auto]. intros [->|H]; auto. exists k. repeat split; auto. constructor.
  - intros z'. split; [intros [<-|[]]; auto|]. intros [->|(i & _ & Hi & _)]; auto. lia.
Qed.

(** ** Selecting by [keep] *)
Lemma memN_In i l : memN i l = true <-> In i l.
Proof.
  unfold memN. rewrite existsb_exists. split.
  - intros (x & H & E). apply Nat.eqb_eq in E. now subst.
  - intros H. exists i. split; auto. apply Nat.eqb_refl.
Qed.

Lemma take_map {A B} keep (f : A -> B) l : take keep (map f l) = map f (take keep l).
Proof.
  unfold take, enum. generalize 0%nat as k. induction l as [|x r IH]; intros k; simpl; auto.
  destruct (memN k keep); simpl; now rewrite IH.
Qed.

Lemma take_Forall2 {A B} (R : A -> B -> Prop) keep l l' :
  Forall2 R l l' -> Forall2 R (take keep l) (take keep l').
Proof.
  unfold take, enum. intros H. generalize 0%nat as k. induction H; intros k; simpl; [constructor|].
  destruct (memN k keep); simpl; auto.
Qed.

Lemma take_Forall {A} (P : A -> Prop) keep l : Forall P l -> Forall P (take keep l).
Proof.
  unfold take, enum. intros H. generalize 0%nat as k. induction H; intros k; simpl; [constructor|].
  destruct (memN k keep); simpl; auto.
Qed.

Lemma picks_filter {A} (P : nat -> bool) (l : list A) :
  forall k, Forall2 (fun i a => (k <= i)%nat /\ nth_error l (i - k) = Some a)
    (filter P (seq k (length l))) (map snd (filter (fun ia => P (fst ia)) (enum_from k l))).
Proof.
  induction l as [|x r IH]; intros k; simpl; [constructor|].
  assert (H : Forall2 (fun i a => (k <= i)%nat /\ nth_error (x :: r) (i - k) = Some a)
    (filter P (seq (S k) (length r))) (map snd (filter (fun ia => P (fst ia)) (enum_from (S k) r)))).
  { specialize (IH (S k)). induction IH as [|i a l1 l2 [H1 H2] F IHF]; constructor; auto.
    split; [lia|]. replace (i - k)%nat with (S (i - S k)) by lia. auto. }
  destruct (P k); simpl; auto. constructor; auto. rewrite Nat.sub_diag. split; [lia|reflexivity].
Qed.

Lemma take_picks {A} (P : nat -> bool) (l : list A) :
  picks (filter P (seq 0 (length l))) l (take (filter P (seq 0 (length l))) l).
Proof.
  unfold picks, take, enum.
  assert (E : filter (fun ia => memN (fst ia) (filter P (seq 0 (length l)))) (enum_from 0 l)
            = filter (fun ia => P (fst ia)) (enum_from 0 l)).
  { apply filter_ext_in. intros [i a] Hin. simpl.
    assert (Hi : (i < length l)%nat).
    { apply In_nth_error in Hin. destruct Hin as [j Hj]. rewrite nth_error_enum_from in Hj.
      destruct (nth_error l j) eqn:Ej; [|discriminate]. simpl in Hj. injection Hj as <- _.
      apply nth_error_Some. congruence. }
    destruct (P i) eqn:Ep.
    - apply memN_In. apply filter_In. split; auto. apply in_seq. lia.
    - destruct (memN i _) eqn:M; auto. apply memN_In in M. apply filter_In in M. destruct M. congruence. }
  rewrite E. clear E. pose proof (picks_filter P l 0) as H.
  induction H as [|i a l1 l2 [_ H2] F IH]; constructor; auto. now rewrite Nat.sub_0_r in H2.
Qed.

Lemma increasing_filter_seq P : forall n k, increasing (filter P (seq k n)).
Proof.
  unfold increasing. induction n as [|n IH]; intros k a b i j Hab Hi Hj; simpl in *.
  - destruct a; discriminate.
  - destruct (P k).
    + destruct b as [|b]; [lia|]. simpl in Hj. destruct a as [|a]; simpl in Hi.
      * injection Hi as <-. apply nth_error_In in Hj. apply filter_In in Hj. destruct Hj as [Hj _].
        apply in_seq in Hj. lia.
      * apply (IH (S k) a b); auto. lia.
    + apply (IH (S k) a b); auto.
Qed.

Lemma increasing_NoDup keep : increasing keep -> NoDup keep.
Proof.
  intros H. apply NoDup_nth_error. intros i j Hi E.
  destruct (nth_error keep i) as [x|] eqn:Ex; [|apply nth_error_None in Ex; lia].
  symmetry in E. destruct (Nat.lt_trichotomy i j) as [L|[->|L]]; auto.
  - pose proof (H _ _ _ _ L Ex E). lia.
  - pose proof (H _ _ _ _ L E Ex). lia.
Qed.

Lemma picks_unique {A} keep (l a b : list A) : picks keep l a -> picks keep l b -> a = b.
Proof.
  intros H. revert b. induction H; intros b H'; inversion H'; subst; auto. f_equal; [congruence|auto].
Qed.

Lemma picks_map {A B} (f : A -> B) keep l l' : picks keep l l' -> picks keep (map f l) (map f l').
Proof.
  unfold picks. intros H. induction H; simpl; constructor; auto. rewrite nth_error_map, H. reflexivity.
Qed.

Lemma picks_nth {A} keep (l l' : list A) m i : picks keep l l' -> nth_error keep m = Some i ->
  nth_error l' m = nth_error l i.
Proof.
  intros H. revert m. induction H; intros [|m] E; simpl in *; try discriminate; auto.
  injection E as ->. auto.
Qed.

Lemma picks_length {A} keep (l l' : list A) : picks keep l l' -> length l' = length keep.
Proof. intros H. symmetry. apply (Forall2_length _ _ _ H). Qed.

Lemma picks_In {A} keep (l l' : list A) a : picks keep l l' -> In a l' -> In a l.
Proof.
  intros H. induction H; simpl; [tauto|]. intros [->|Hin]; auto. eapply nth_error_In; eauto.
Qed.

(** ** keep_idx_map *)
Lemma dget_combine_NoDup {V} keys (vals : list V) : NoDup keys -> length keys = length vals -> forall z v,
  dget Z.eqb (combine keys vals) z = Some v <-> exists m, nth_error keys m = Some z /\ nth_error vals m = Some v.
Proof.
  intros ND. revert vals. induction ND as [|x keys Hx ND IH]; intros [|y vals] Hl z v; simpl in *; try discriminate.
  - split; [discriminate|]. intros ([|m] & H & _); discriminate.
  - destruct (Z.eqb_spec z x) as [->|N].
    + split.
      * intros H. injection H as ->. exists 0%nat. auto.
      * intros ([|m] & H1 & H2); simpl in *; [congruence|]. exfalso. apply Hx. eapply nth_error_In; eauto.
    + rewrite IH by lia. split.
      * intros (m & H1 & H2). exists (S m). auto.
      * intros ([|m] & H1 & H2); simpl in *; [congruence|]. eauto.
Qed.

Lemma NoDup_keys keep : NoDup keep -> NoDup (-1 :: map Z.of_nat keep).
Proof.
  intros H. constructor.
  - intros X. apply in_map_iff in X. destruct X as (i & X & _). lia.
  - apply FinFun.Injective_map_NoDup; auto. intros a b E. lia.
Qed.

Lemma keep_idx_map_spec keep z y : NoDup keep ->
  (dget Z.eqb (keep_idx_map keep) z = Some y <-> same_parent keep z y).
Proof.
  intros ND. unfold keep_idx_map.
  rewrite dget_combine_NoDup.
  - unfold same_parent. split.
    + intros ([|m] & H1 & H2).
      * simpl in *. left. injection H1 as <-. injection H2 as <-. auto.
      * right. simpl in H1. rewrite nth_error_map in H1. destruct (nth_error keep m) as [i|] eqn:E; [|discriminate].
        simpl in H1. injection H1 as <-. rewrite nth_error_map in H2.
        assert (Hm : (m < length keep)%nat) by (apply nth_error_Some; congruence).
        rewrite nth_error_nth' with (d := 0%nat) in H2 by (rewrite seq_length; lia).
        rewrite seq_nth in H2 by lia. cbn [option_map] in H2. assert (Hy : y = Z.of_nat (0 + S m) - 1) by congruence. clear H2. subst y.
        exists m, i. repeat split; auto. lia.
    + intros [[-> ->]|(m & i & -> & -> & E)].
      * exists 0%nat. split; reflexivity.
      * exists (S m). split.
        -- simpl. rewrite nth_error_map, E. reflexivity.
        -- assert (Hm : (m < length keep)%nat) by (apply nth_error_Some; congruence).
           rewrite nth_error_map, nth_error_nth' with (d := 0%nat) by (rewrite seq_length; lia).
           rewrite seq_nth by lia. cbn [option_map]. f_equal. lia.
  - now apply NoDup_keys.
  - simpl. rewrite !map_length, seq_length. reflexivity.
Qed.

Lemma dgetE_Ok {K V} (eqb : K -> K -> bool) (d : list (K * V)) k v : dgetE eqb d k = Ok v <-> dget eqb d k = Some v.
Proof. unfold dgetE. destruct (dget eqb d k); split; congruence. Qed.

(** ** Views after selection *)
Section Delete.
Context {K L G O : Type}.
Variable W : widths.
Variable ops : parse_ops K L G.
Implicit Type s : System K L G O.
Notation view := (link_view K L O).

Lemma concat_splits {V} (ps : list (list V)) : splits (map (@length V) ps) (concat ps) ps.
Proof. split; auto. Qed.

(** A system built from a list of views. *)
Lemma views_mk (vs : list view) ps (gs : list (Z * G)) dt gr im mi mn qs ds :
  length ps = length vs ->
  have_widths (qW W) (map v_type vs) qs -> have_widths (dW W) (map v_type vs) ds ->
  map (@length K) (map v_damping vs) = ds -> map (@length K) (map v_armature vs) = ds ->
  map (@length K) (map v_stiffness vs) = ds -> map (@length K) (map v_zeropoint vs) = qs ->
  views W (mkSys ps (map v_link vs) (map v_type vs) (concat (map v_damping vs)) (concat (map v_armature vs))
     (concat (map v_stiffness vs)) (concat (map v_zeropoint vs)) dt gs gr im mi (map v_name vs) mn (map v_omc vs)) vs.
Proof.
  intros. unfold views; simpl. repeat split; auto. exists qs, ds.
  repeat (split; auto).
Qed.

Lemma views_widths s vs : views W s vs -> exists qs ds,
  have_widths (qW W) (map v_type vs) qs /\ have_widths (dW W) (map v_type vs) ds /\
  map (@length K) (map v_damping vs) = ds /\ map (@length K) (map v_armature vs) = ds /\
  map (@length K) (map v_stiffness vs) = ds /\ map (@length K) (map v_zeropoint vs) = qs.
Proof.
  intros (A1 & A2 & A3 & A4 & A5 & qs & ds & Q & D & A6 & A7 & A8 & A9).
  exists qs, ds. rewrite <- A2. repeat (split; auto); try apply A6; try apply A7; try apply A8; apply A9.
Qed.

Lemma concatenate_nonempty {A} (l : list (list A)) : l <> [] -> concatenate l = Ok (concat l).
Proof. destruct l; [tauto|reflexivity]. Qed.

(** Re-indexed geometries. *)
Lemma reindex_geoms_Ok keep (gs : list (Z * G)) : NoDup keep ->
  exists gs', reindex_geoms keep gs = Ok gs' /\
    (forall m i, nth_error keep m = Some i -> attached (Z.of_nat m) gs' = attached (Z.of_nat i) gs) /\
    (forall z, z < 0 \/ Z.of_nat (length keep) <= z -> attached z gs' = []) /\
    Forall (fun g => 0 <= fst g < Z.of_nat (length keep)) gs'.
Proof.
  intros ND. unfold reindex_geoms. induction gs as [|[z g] r IH].
  - exists []. simpl. repeat split; auto.
  - destruct IH as (gs' & E & H1 & H2 & H3). simpl.
    destruct (memZ z (map Z.of_nat keep)) eqn:M.
    + apply memZ_In in M. apply in_map_iff in M. destruct M as (i0 & <- & Hin).
      apply In_nth_error in Hin. destruct Hin as [m0 Hm0].
      assert (D : dget Z.eqb (keep_idx_map keep) (Z.of_nat i0) = Some (Z.of_nat m0)).
      { apply keep_idx_map_spec; auto. right. exists m0, i0. auto. }
      cbn [mapM]. unfold dgetE at 1. cbn [fst snd]. rewrite D. cbn [bind]. rewrite E. cbn [bind].
      exists ((Z.of_nat m0, g) :: gs'). split; auto.
      assert (Lm : (m0 < length keep)%nat) by (apply nth_error_Some; congruence).
      split; [|split].
      * intros m i Hm. simpl. destruct (Z.eq_dec (Z.of_nat m0) (Z.of_nat m)) as [E0|N].
        -- apply Nat2Z.inj in E0. subst m0. rewrite Hm in Hm0. injection Hm0 as ->.
           destruct (Z.eq_dec (Z.of_nat i0) (Z.of_nat i0)); [|tauto]. f_equal. eauto.
        -- destruct (Z.eq_dec (Z.of_nat i0) (Z.of_nat i)) as [E0|N']; [|eauto].
           apply Nat2Z.inj in E0. subst. exfalso. apply N. f_equal. eapply NoDup_nth_error_inj; eauto.
      * intros z Hz. simpl. destruct (Z.eq_dec (Z.of_nat m0) z); [lia|auto].
      * constructor; auto. simpl. lia.
    + exists gs'. split; auto. split; [|auto]. apply memZ_false in M.
      intros m i Hm. simpl. destruct (Z.eq_dec z (Z.of_nat i)) as [->|]; [|eauto].
      exfalso. apply M. apply in_map. eapply nth_error_In; eauto.
Qed.

(** Re-indexed parents: [keep] closed under parents. *)
Lemma reindex_parents_Ok keep parents : NoDup keep -> topo parents ->
  picks keep parents (take keep parents) ->
  (forall i p, In i keep -> nth_error parents i = Some (Z.of_nat p) -> In p keep) ->
  exists ps, reindex_parents parents keep = Ok ps /\
    Forall2 (fun i p' => exists p, nth_error parents i = Some p /\ same_parent keep p p') keep ps.
Proof.
  intros ND T P C. unfold reindex_parents.
  assert (H : forall kp l, (forall i, In i kp -> In i keep) -> picks kp parents l ->
     exists ps, mapM (dgetE Z.eqb (keep_idx_map keep)) l = Ok ps /\
       Forall2 (fun i p' => exists p, nth_error parents i = Some p /\ same_parent keep p p') kp ps).
  { intros kp l Sub F. induction F as [|i p kp l Hi F IH].
    - exists []. split; auto.
    - destruct IH as (ps & E & F'); [intros; apply Sub; now right|].
      assert (SP : exists p', same_parent keep p p').
      { pose proof (T _ _ Hi) as Tp. destruct (Z.eq_dec p (-1)) as [->|N].
        - exists (-1). left. auto.
        - assert (Hp : nth_error parents i = Some (Z.of_nat (Z.to_nat p))) by (rewrite Z2Nat.id by lia; auto).
          apply C in Hp; [|apply Sub; now left]. apply In_nth_error in Hp. destruct Hp as [m Hm].
          exists (Z.of_nat m). right. exists m, (Z.to_nat p). repeat split; auto. lia. }
      destruct SP as [p' SP]. exists (p' :: ps). split.
      + cbn [mapM]. assert (D : dgetE Z.eqb (keep_idx_map keep) p = Ok p').
        { apply dgetE_Ok. now apply keep_idx_map_spec. }
        rewrite D. cbn [bind]. rewrite E. reflexivity.
      + constructor; eauto. }
  apply H; auto.
Qed.

Lemma keepers_spec n sub i : In i (keepers n sub) <-> (i < n)%nat /\ ~ In (Z.of_nat i) sub.
Proof.
  unfold keepers. rewrite filter_In, in_seq, negb_true_iff, memZ_false. intuition lia.
Qed.

Lemma same_parent_topo keep ps' parents : increasing keep -> topo parents ->
  Forall2 (fun i p' => exists p, nth_error parents i = Some p /\ same_parent keep p p') keep ps' -> topo ps'.
Proof.
  intros Inc T F j p' Hj.
  assert (Lj : (j < length keep)%nat).
  { rewrite (Forall2_length _ _ _ F). apply nth_error_Some. congruence. }
  destruct (nth_error keep j) as [i|] eqn:Ei; [|apply nth_error_None in Ei; lia].
  assert (X : exists p, nth_error parents i = Some p /\ same_parent keep p p').
  { exact (Forall2_nth _ _ _ _ _ _ F Ei Hj). }
  destruct X as (p & Hp & [[-> ->]|(m & i' & -> & -> & Hm)]); [lia|].
  apply T in Hp. destruct (Nat.lt_trichotomy m j) as [L1|[->|L1]]; [lia| |].
  - rewrite Ei in Hm. injection Hm as ->. lia.
  - pose proof (Inc _ _ _ _ L1 Ei Hm). lia.
Qed.

(** Main lemma on a kept set: everything before the final parse. *)
Definition pre_delete s (keep : list nat) (vs : list view) ps gs : System K L G O :=
  mkSys ps (map v_link (take keep vs)) (map v_type (take keep vs)) (concat (map v_damping (take keep vs)))
     (concat (map v_armature (take keep vs))) (concat (map v_stiffness (take keep vs)))
     (concat (map v_zeropoint (take keep vs))) (sys_dt s) gs (gravity s) (integration_method s)
     (mass_mat_iters s) (map v_name (take keep vs)) (model_name s) (map v_omc (take keep vs)).

Lemma delete_one_unfold s name k vs :
  views W s vs -> indexS name (link_names s) = Ok k ->
  let keep := keepers (num_links s) (find_subsystem_indices (link_parents s) k) in
  delete_one W ops s name =
    (do d <- concatenate (map v_damping (take keep vs));
     do a <- concatenate (map v_armature (take keep vs));
     do ss <- concatenate (map v_stiffness (take keep vs));
     do sz <- concatenate (map v_zeropoint (take keep vs));
     do ps <- reindex_parents (link_parents s) keep;
     do gs <- reindex_geoms keep (geoms s);
     parse W ops
      (mkSys ps (map v_link (take keep vs)) (map v_type (take keep vs)) d a ss sz (sys_dt s) gs (gravity s)
           (integration_method s) (mass_mat_iters s) (map v_name (take keep vs)) (model_name s)
           (map v_omc (take keep vs)))).
Proof.
  intros V E keep. unfold delete_one.
  assert (M : memS name (link_names s) = true).
  { apply memS_In. apply indexS_spec in E. destruct E as [E _]. eapply nth_error_In; eauto. }
  rewrite M. cbn [assert_ bind]. unfold name_to_idx. rewrite E. cbn [bind].
  rewrite (views_per_link_arrays W _ _ V). cbn [bind]. fold keep.
  destruct V as (A1 & A2 & A3 & A4 & _).
  rewrite A1, A2, A3, A4, !take_map, !map_map. reflexivity.
Qed.

Hypothesis laws : ops_laws ops.

Theorem delete_one_parsed s name k :
  parsed W ops s -> nth_error (link_names s) k = Some name ->
  let keep := keepers (num_links s) (find_subsystem_indices (link_parents s) k) in
  (forall i, In i keep <-> (i < num_links s)%nat /\ ~ descends (link_parents s) k i) /\
  (keep = [] -> delete_one W ops s name = Err EValue) /\
  (keep <> [] -> exists s', delete_one W ops s name = Ok s' /\ parsed W ops s' /\ restricts W s s' keep /\
     attached (-1) (geoms s') = []).
Proof.
  intros PD Hk keep. pose proof (pd_wf _ _ _ PD) as WF. destruct (pd_valid _ _ _ PD) as (vs & V & FV).
  pose proof (wf_topo _ _ WF) as T.
  assert (Lk : (k < num_links s)%nat).
  { unfold num_links. rewrite <- (wf_names _ _ WF). apply nth_error_Some. congruence. }
  assert (E : indexS name (link_names s) = Ok k) by (apply indexS_NoDup; [apply WF|auto]).
  assert (KS : forall i, In i keep <-> (i < num_links s)%nat /\ ~ descends (link_parents s) k i).
  { intros i. unfold keep. rewrite keepers_spec, find_subsystem_indices_spec by auto.
    split; intros [X Y]; split; auto.
    - intros D. apply Y. exists i. auto.
    - intros (j & Ej & _ & D). apply Nat2Z.inj in Ej. subst. auto. }
  split; auto.
  assert (Inc : increasing keep) by apply increasing_filter_seq.
  assert (ND := increasing_NoDup _ Inc).
  assert (TP : forall {A} (l : list A), length l = num_links s -> picks keep l (take keep l)).
  { intros A l Hl. unfold keep, keepers. rewrite <- Hl. apply take_picks. }
  assert (CL : forall i p, In i keep -> nth_error (link_parents s) i = Some (Z.of_nat p) -> In p keep).
  { intros i p Hi Hp. apply KS in Hi. destruct Hi as [Hi ND']. apply KS. pose proof (T _ _ Hp).
    split; [lia|]. intros D. apply ND'. econstructor; eauto. }
  destruct (views_lengths _ _ _ V) as (L1 & L2 & L3 & L4 & L5).
  pose proof (TP _ vs L5) as Pv.
  rewrite (delete_one_unfold s name k vs V E). fold keep.
  assert (Etake : take keep vs = [] <-> keep = []).
  { pose proof (picks_length _ _ _ Pv) as PL. destruct (take keep vs), keep; simpl in PL; split; intros; auto; discriminate. }
  split.
  - intros EK. apply Etake in EK. rewrite EK. reflexivity.
  - intros NE. assert (NT : take keep vs <> []) by (intros X; apply NE, Etake, X).
    assert (NM : forall {B} (f : view -> B), map f (take keep vs) <> []).
    { intros B f X. apply NT. destruct (take keep vs); [auto|discriminate]. }
    rewrite !concatenate_nonempty by apply NM. cbn [bind].
    destruct (reindex_parents_Ok keep (link_parents s) ND T (TP _ _ eq_refl) CL) as (ps & EP & FP).
    destruct (reindex_geoms_Ok keep (geoms s) ND) as (gs & EG & G1 & G2 & G3).
    rewrite EP, EG. cbn [bind].
    set (pre := mkSys _ _ _ _ _ _ _ _ _ _ _ _ _ _ _).
    assert (LP : length ps = length (take keep vs)).
    { rewrite (picks_length _ _ _ Pv). symmetry. eapply Forall2_length; eauto. }
    assert (VP : views W pre (take keep vs)).
    { destruct (views_widths _ _ V) as (qs & ds & Q & D & D1 & D2 & D3 & Q1).
      apply (views_mk _ _ _ _ _ _ _ _ (take keep qs) (take keep ds)); auto.
      - rewrite <- take_map. now apply take_Forall2.
      - rewrite <- take_map. now apply take_Forall2.
      - rewrite <- !take_map, D1. auto.
      - rewrite <- !take_map, D2. auto.
      - rewrite <- !take_map, D3. auto.
      - rewrite <- !take_map, Q1. auto. }
    assert (PP : parse W ops pre = Ok (parse_post ops pre)).
    { apply parse_iff. split; auto. split.
      - simpl. rewrite <- take_map. destruct V as (A1 & _). rewrite <- A1.
        pose proof (wf_unique _ _ WF) as U.
        pose proof (TP _ (link_names s) L3) as Pn.
        apply NoDup_nth_error. intros i j Hi Eij.
        rewrite (picks_length _ _ _ Pn) in Hi.
        destruct (nth_error keep i) as [x|] eqn:Ex; [|apply nth_error_None in Ex; lia].
        pose proof (picks_nth _ _ _ _ _ Pn Ex) as Nx.
        destruct (nth_error keep j) as [y|] eqn:Ey.
        + pose proof (picks_nth _ _ _ _ _ Pn Ey) as Ny.
          assert (x = y).
          { rewrite NoDup_nth_error in U. apply U; [|congruence].
            assert (In x keep) by (eapply nth_error_In; eauto). apply KS in H. rewrite L3. tauto. }
          subst y. apply (NoDup_nth_error_inj keep i j x); auto.
        + exfalso. assert (X : nth_error (take keep (link_names s)) j = None).
          { apply nth_error_None. rewrite (picks_length _ _ _ Pn). apply nth_error_None. auto. }
          rewrite X, Nx in Eij. apply nth_error_None in Eij.
          assert (In x keep) by (eapply nth_error_In; eauto). apply KS in H. lia.
      - split.
        + eapply Forall_impl; [|exact G3]. intros g Hg. cbv beta in Hg. unfold num_links; simpl.
          rewrite <- (Forall2_length _ _ _ FP). lia.
        + exists (take keep vs). split; auto. now apply take_Forall. }
    rewrite PP. eexists. split; [reflexivity|].
    assert (TT : topo ps) by (eapply same_parent_topo; eauto).
    split; [eapply parse_parsed; eauto|].
    assert (FI : inertia_views ops gs (take keep vs) = take keep vs).
    { apply nth_error_ext. intros m. unfold inertia_views, enum. rewrite nth_error_map, nth_error_enum_from.
      destruct (nth_error (take keep vs) m) as [v|] eqn:Em; simpl; auto. f_equal.
      assert (Lm : (m < length keep)%nat).
      { rewrite <- (picks_length _ _ _ Pv). apply nth_error_Some. congruence. }
      destruct (nth_error keep m) as [i|] eqn:Ei; [|apply nth_error_None in Ei; lia].
      rewrite (G1 _ _ Ei). pose proof (picks_nth _ _ _ _ _ Pv Ei) as Nv. rewrite Em in Nv. symmetry in Nv.
      assert (X : with_inertia ops (attached (Z.of_nat i) (geoms s)) (v_link v) = v_link v).
      { apply (pd_inertia _ _ _ PD). destruct V as (_ & _ & A3 & _). rewrite A3, nth_error_map, Nv. reflexivity. }
      rewrite X. destruct v; reflexivity. }
    split.
    + constructor; auto.
      * exists vs, (take keep vs). split; auto. split; auto.
        pose proof (parse_post_views W ops _ _ VP) as VQ. simpl in VQ. rewrite FI in VQ. exact VQ.
      * intros m i Hm. simpl. rewrite attached_sort. auto.
    + simpl. rewrite attached_sort. apply G2. lia.
Qed.

Lemma delete_one_missing s name : ~ In name (link_names s) -> delete_one W ops s name = Err EAssertion.
Proof. intros H. unfold delete_one. apply memS_false in H. rewrite H. reflexivity. Qed.

End Delete.
