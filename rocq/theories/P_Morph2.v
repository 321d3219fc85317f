(** * morph_system: frames, geometries and the assembled system. *)
From Coq Require Import String ZArith Lia Bool List Permutation.
From Verif Require Import Prelude M_Sys S_Sys S_Morph M_Compose M_Morph S_Morph2 P_Scan P_Sys P_Delete P_Tree P_Reroot P_Dfs P_Morph.
Import ListNotations.
Local Open Scope Z_scope.

Section Fk.
Context {T P J : Type}.
Variable A : talg T P.
Variable jt : string -> J -> T.

Definition xat (xs : list T) (z : Z) : T := if z =? -1 then tid A else nth (Z.to_nat z) xs (tid A).

Lemma fk_loop_total : forall ps ts js t1s xs0, length ts = length ps -> length js = length ps -> length t1s = length ps ->
  (forall i p, nth_error ps i = Some p -> -1 <= p < Z.of_nat (length xs0 + i)) ->
  exists xs', fk_loop A jt ps ts js t1s xs0 = Ok (xs0 ++ xs') /\ length xs' = length ps /\
    forall i p t j t1, nth_error ps i = Some p -> nth_error ts i = Some t -> nth_error js i = Some j ->
      nth_error t1s i = Some t1 ->
      nth_error (xs0 ++ xs') (length xs0 + i) = Some (tmul A (tmul A (jt t j) t1) (xat (xs0 ++ xs') p)).
Proof.
  induction ps as [|p ps IH]; intros ts js t1s xs0 L1 L2 L3 HT.
  - exists []. simpl. rewrite app_nil_r. split; auto. split; auto. intros [|i]; discriminate.
  - destruct ts as [|t ts]; [discriminate|]. destruct js as [|j js]; [discriminate|]. destruct t1s as [|t1 t1s]; [discriminate|].
    cbn [fk_loop].
    assert (Hp : -1 <= p < Z.of_nat (length xs0)) by (specialize (HT 0%nat p eq_refl); rewrite Nat.add_0_r in HT; lia).
    assert (E : (if p =? -1 then Ok (tid A) else
                match (if p <? 0 then None else nth_error xs0 (Z.to_nat p)) with
                | Some x => Ok x | None => Err EKey end) = Ok (xat xs0 p)).
    { unfold xat. destruct (Z.eqb_spec p (-1)); auto. destruct (Z.ltb_spec p 0); [lia|].
      rewrite (nth_error_nth_in xs0 (Z.to_nat p) (tid A)) by lia. reflexivity. }
    rewrite E. cbn [bind].
    destruct (IH ts js t1s (xs0 ++ [tmul A (tmul A (jt t j) t1) (xat xs0 p)])) as (xs' & E' & L' & S'); simpl in *; try lia.
    { intros i q Hq. rewrite app_length. simpl. specialize (HT (S i) q Hq). lia. }
    exists (tmul A (tmul A (jt t j) t1) (xat xs0 p) :: xs'). rewrite <- app_assoc in E'. cbn [app] in E'.
    split; auto. split; [simpl; lia|]. intros i p' t' j' t1' H1 H2 H3 H4. destruct i as [|i]; simpl in *.
    + assert (p' = p) by congruence. assert (t' = t) by congruence. assert (j' = j) by congruence. assert (t1' = t1) by congruence.
      subst. rewrite Nat.add_0_r, nth_error_app2, Nat.sub_diag by lia. simpl. do 2 f_equal.
      unfold xat. destruct (p =? -1) eqn:EE; auto. apply Z.eqb_neq in EE. rewrite app_nth1; auto; lia.
    + rewrite <- app_assoc in S'. cbn [app] in S'. specialize (S' i p' t' j' t1' H1 H2 H3 H4).
      rewrite app_length in S'. simpl in S'. replace (length xs0 + S i)%nat with (length xs0 + 1 + i)%nat by lia. exact S'.
Qed.
End Fk.

Section Morph.
Context {K T P J R G O : Type}.
Variable W : widths.
Notation Lk := (mlink T P J R).
Notation Sys := (System K Lk (T * G) O).
Notation view := (link_view K Lk O).
Variable ops : parse_ops K Lk (T * G).
Variable A : talg T P.
Variable jt : string -> J -> T.
Hypothesis laws : ops_laws ops.
Hypothesis llaws : link_laws ops A.
Variable s : Sys.
Variable np : list Z.
Hypothesis PD : parsed W ops s.
Hypothesis HN : length np = num_links s.
Notation lam := (link_parents s).
Notation n := (length np).
Notation pi := (perm np).

Let WF := pd_wf _ _ _ PD.
Lemma TP : topo lam. Proof. apply (wf_topo _ _ WF). Qed.
Lemma HLN : length lam = n. Proof. unfold num_links in HN. lia. Qed.

(** The value of forward kinematics in the default state. *)
Lemma fk_default_ok t1s : length t1s = n -> exists xs, fk_default A jt s t1s = Ok xs /\ length xs = n /\
  forall i l ty, nth_error (links s) i = Some l -> nth_error (link_types s) i = Some ty ->
     nth i xs (tid A) = tmul A (tmul A (jt ty (l_jp l)) (nth i t1s (tid A))) (xat A xs (nth i lam 0)).
Proof.
  intros L. unfold fk_default.
  destruct (fk_loop_total A jt lam (link_types s) (map l_jp (links s)) t1s []) as (xs & E & LX & S).
  - apply (wf_types _ _ WF).
  - rewrite map_length. apply (wf_links _ _ WF).
  - rewrite L. symmetry. apply HLN.
  - exact TP.
  - simpl in *. exists xs. split; auto. split; [rewrite LX; apply HLN|]. intros i l ty Hl Ht.
    assert (Hi : (i < n)%nat).
    { rewrite <- HLN, <- (wf_links _ _ WF). apply nth_error_Some. congruence. }
    apply nth_of_nth_error. apply S; auto.
    + apply nth_error_nth_in. rewrite HLN. auto.
    + rewrite nth_error_map, Hl. reflexivity.
    + apply nth_error_nth_in. lia.
Qed.

Hypothesis AH : all_hang np.
Hypothesis EK : edges_kept lam np.

Notation nodes := (map (node_of lam np) (seq 0 n)).
Definition mv (i : nat) : bool := negb (nth i np 0 =? nth i lam 0) && negb (nth i np 0 =? -1).

Lemma moves_node i : moves (node_of lam np i) = mv i.
Proof. reflexivity. Qed.

Lemma np_nat i : (i < n)%nat -> nth i np 0 <> -1 -> (Z.to_nat (nth i np 0%Z) < n)%nat /\ Z.of_nat (Z.to_nat (nth i np 0%Z)) = nth i np 0.
Proof. intros Hi N. pose proof (np_range lam np HLN i AH Hi). lia. Qed.

Lemma mv_nat i : (i < n)%nat -> mv i = true -> (Z.to_nat (nth i np 0%Z) < n)%nat /\ Z.of_nat (Z.to_nat (nth i np 0%Z)) = nth i np 0 /\ nth i np 0 <> -1.
Proof.
  intros Hi M. apply andb_true_iff in M. destruct M as [_ M]. apply negb_true_iff, Z.eqb_neq in M.
  destruct (np_nat i Hi M). auto.
Qed.

Lemma x_moved_ok x : length x = n -> exists xm, x_moved nodes x = Ok xm /\ length xm = n /\
  forall i, (i < n)%nat -> nth i xm (tid A) = if mv i then xat A x (nth i np 0%Z) else nth i x (tid A).
Proof.
  intros LX. unfold x_moved.
  assert (X : forall l xm0, NoDup l -> (forall i, In i l -> (i < n)%nat) -> length xm0 = n ->
    exists xm, foldM (fun xm nd => if moves nd then do xp <- py_get x (new_parent_old nd); Ok (list_set xm (link_idx_old nd) xp) else Ok xm)
       xm0 (map (node_of lam np) l) = Ok xm /\ length xm = n /\
     forall j, (j < n)%nat -> nth j xm (tid A) = if existsb (Nat.eqb j) l && mv j then xat A x (nth j np 0) else nth j xm0 (tid A)).
  { induction l as [|i l IH]; intros xm0 ND Hl L0; cbn [map foldM].
    - exists xm0. auto.
    - inversion ND as [|? ? N1 N2]; subst. assert (Hi : (i < n)%nat) by (apply Hl; now left).
      rewrite moves_node. destruct (mv i) eqn:M.
      + destruct (mv_nat i Hi M) as (B1 & B2 & B3). cbn [node_of new_parent_old link_idx_old].
        rewrite <- B2, (py_get_nth x _ (tid A)) by lia. cbn [bind].
        destruct (IH (list_set xm0 i (nth (Z.to_nat (nth i np 0%Z)) x (tid A)))) as (xm & E & L & S); auto.
        { intros k Hk. apply Hl. now right. }
        { now rewrite length_list_set. }
        exists xm. split; auto. split; auto. intros j Hj. rewrite S by auto. cbn [existsb].
        destruct (Nat.eqb_spec j i) as [->|Nj].
        * rewrite M. replace (existsb (Nat.eqb i) l) with false.
          { cbn [andb orb]. rewrite nth_list_set, Nat.eqb_refl by lia. unfold xat. destruct (Z.eqb_spec (nth i np 0%Z) (-1)); [congruence|auto]. }
          symmetry. apply not_true_iff_false. intros X. apply existsb_exists in X. destruct X as (y & Hy & Ey). apply Nat.eqb_eq in Ey. now subst.
        * cbn [orb]. rewrite nth_list_set by lia. destruct (Nat.eqb_spec j i); [congruence|auto].
      + cbn [bind]. destruct (IH xm0) as (xm & E & L & S); auto.
        { intros k Hk. apply Hl. now right. }
        exists xm. split; auto. split; auto. intros j Hj. rewrite S by auto. cbn [existsb].
        destruct (Nat.eqb_spec j i) as [->|Nj]; auto. rewrite M, !andb_false_r. auto. }
  destruct (X (seq 0 n) x) as (xm & E & L & S); auto.
  - apply seq_NoDup.
  - intros i Hi. apply in_seq in Hi. lia.
  - exists xm. split; auto. split; auto. intros i Hi. rewrite S by auto.
    replace (existsb (Nat.eqb i) (seq 0 n)) with true; auto. symmetry. apply existsb_exists. exists i.
    split; [apply in_seq; lia|apply Nat.eqb_refl].
Qed.

(** Compensation of the geometries. *)
Definition shift (x : list T) (i : nat) : T := tmul A (nth i x (tid A)) (tinv A (xat A x (nth i np 0%Z))).
Definition geom_of (x : list T) (g : Z * (T * G)) : Z * (T * G) :=
  if (0 <=? fst g) && mv (Z.to_nat (fst g)) then (fst g, (tmul A (fst (snd g)) (shift x (Z.to_nat (fst g))), snd (snd g))) else g.

Lemma move_geoms_ok x gs : length x = n -> Forall (fun g => -1 <= fst g < Z.of_nat n) gs ->
  move_geoms A nodes x gs = Ok (map (geom_of x) gs).
Proof.
  intros LX FG. unfold move_geoms.
  assert (X : forall l gs0, NoDup l -> (forall i, In i l -> (i < n)%nat) ->
    foldM (fun gs nd => if moves nd then
             do xt <- py_get x (Z.of_nat (link_idx_old nd));
             do xp <- py_get x (new_parent_old nd);
             let d := tmul A xt (tinv A xp) in
             Ok (map (fun g => if fst g =? Z.of_nat (link_idx_old nd)
                               then (fst g, (tmul A (fst (snd g)) d, snd (snd g))) else g) gs)
           else Ok gs) gs0 (map (node_of lam np) l) =
    Ok (map (fun g => if existsb (fun i => Z.of_nat i =? fst g) l then geom_of x g else g) gs0)).
  { induction l as [|i l IH]; intros gs0 ND Hl; cbn [map foldM].
    - f_equal. symmetry. apply map_id.
    - inversion ND as [|? ? N1 N2]; subst. assert (Hi : (i < n)%nat) by (apply Hl; now left).
      rewrite moves_node. destruct (mv i) eqn:M.
      + destruct (mv_nat i Hi M) as (B1 & B2 & B3). cbn [node_of new_parent_old link_idx_old].
        rewrite (py_get_nth x i (tid A)) by lia. cbn [bind].
        rewrite <- B2 at 1. rewrite (py_get_nth x _ (tid A)) by lia. cbn [bind].
        rewrite IH; auto; [|intros k Hk; apply Hl; now right]. f_equal. rewrite map_map. apply map_ext. intros g.
        cbn [existsb]. rewrite (Z.eqb_sym (Z.of_nat i)).
        destruct (Z.eqb_spec (fst g) (Z.of_nat i)) as [Eg|Ng].
        * cbn [orb fst].
          replace (existsb (fun j => Z.of_nat j =? fst g) l) with false.
          { unfold geom_of. rewrite Eg, Nat2Z.id, M. replace (0 <=? Z.of_nat i) with true by (symmetry; apply Z.leb_le; lia).
            cbn [andb]. unfold shift, xat. destruct (Z.eqb_spec (nth i np 0%Z) (-1)); [congruence|]. reflexivity. }
          symmetry. apply not_true_iff_false. intros X. apply existsb_exists in X. destruct X as (y & Hy & Ey). apply Z.eqb_eq in Ey.
          apply N1. replace i with y by lia. auto.
        * reflexivity.
      + cbn [bind]. rewrite IH; auto; [|intros k Hk; apply Hl; now right]. f_equal. apply map_ext. intros g. cbn [existsb].
        rewrite (Z.eqb_sym (Z.of_nat i)). destruct (Z.eqb_spec (fst g) (Z.of_nat i)) as [Eg|Ng]; auto.
        cbn [orb]. assert (EG : geom_of x g = g).
        { unfold geom_of. rewrite Eg, Nat2Z.id, M, andb_false_r. reflexivity. }
        rewrite EG. destruct (existsb _ l); auto. }
  rewrite X; [|apply seq_NoDup|intros i Hi; apply in_seq in Hi; lia]. f_equal. apply map_ext_in. intros g Hg.
  rewrite Forall_forall in FG. specialize (FG g Hg). cbv beta in FG.
  destruct (existsb (fun i => Z.of_nat i =? fst g) (seq 0 n)) eqn:E; auto.
  destruct (Z.eq_dec (fst g) (-1)) as [EQ|NQ].
  - unfold geom_of. rewrite EQ. reflexivity.
  - exfalso. apply not_true_iff_false in E. apply E. apply existsb_exists. exists (Z.to_nat (fst g)). split.
    + apply in_seq. lia.
    + apply Z.eqb_eq. lia.
Qed.

Lemma nth_error_nodes i : (i < n)%nat -> nth_error nodes i = Some (node_of lam np i).
Proof.
  intros H. rewrite nth_error_map, nth_error_nth_in with (d := 0%nat) by (now rewrite seq_length).
  rewrite seq_nth by auto. reflexivity.
Qed.

Definition t1_of (xm : list T) (i : nat) : T := tmul A (nth i xm (tid A)) (tinv A (xat A xm (nth i np 0%Z))).

Lemma new_t1_ok xm i : length xm = n -> (i < n)%nat -> new_t1 A nodes xm (Z.of_nat i) = Ok (t1_of xm i).
Proof.
  intros L Hi. unfold new_t1. rewrite (py_get_nat _ _ _ (nth_error_nodes i Hi)). cbn [bind node_of new_parent_old].
  unfold t1_of, xat. destruct (Z.eqb_spec (nth i np 0%Z) (-1)) as [E|N].
  - cbn [bind]. rewrite (py_get_nth xm i (tid A)) by lia. reflexivity.
  - destruct (np_nat i Hi N) as [B1 B2]. rewrite <- B2 at 1. rewrite (py_get_nth xm _ (tid A)) by lia. cbn [bind].
    rewrite (py_get_nth xm i (tid A)) by lia. reflexivity.
Qed.

Lemma links_length : length (links s) = n.
Proof. rewrite (wf_links _ _ WF). apply HLN. Qed.

Lemma new_pos_ok bound i : (i < n)%nat -> exists p, new_pos A jt s nodes bound i = Ok p.
Proof.
  intros Hi. unfold new_pos, pos_use. rewrite (py_get_nat _ _ _ (nth_error_nodes i Hi)). cbn [bind].
  rewrite moves_node.
  assert (X : forall t1s, length t1s = n -> exists p, (do x <- fk_default A jt s t1s; do xm <- x_moved nodes x;
            do t <- new_t1 A nodes xm (Z.of_nat i); Ok (tpos A t)) = Ok p).
  { intros t1s L. destruct (fk_default_ok t1s L) as (x & E & LX & _). rewrite E. cbn [bind].
    destruct (x_moved_ok x LX) as (xm & E2 & L2 & _). rewrite E2. cbn [bind]. rewrite new_t1_ok by auto. cbn [bind]. eauto. }
  assert (L0 : length (map l_t1 (links s)) = n) by (rewrite map_length; apply links_length).
  assert (Y : forall u, (u < n)%nat -> exists p, (do t1s' <- (do l <- py_get (links s) (Z.of_nat u);
                         Ok (list_set (map l_t1 (links s)) (Z.to_nat (Z.of_nat u)) (set_pos A (bound l) (l_t1 l))));
             do x <- fk_default A jt s t1s'; do xm <- x_moved nodes x;
            do t <- new_t1 A nodes xm (Z.of_nat i); Ok (tpos A t)) = Ok p).
  { intros u Hu. destruct (nth_error (links s) u) as [l|] eqn:El; [|apply nth_error_None in El; rewrite links_length in El; lia].
    rewrite (py_get_nat _ _ _ El). cbn [bind]. apply X. rewrite length_list_set. auto. }
  destruct (mv i) eqn:M.
  - destruct (mv_nat i Hi M) as (B1 & B2 & B3). cbn [node_of new_parent_old].
    rewrite <- B2, (py_get_nat _ _ _ (nth_error_nodes _ B1)). cbn [bind node_of new_parent_old].
    destruct (Z.eqb_spec (nth (Z.to_nat (nth i np 0%Z)) np 0) (-1)) as [E|N]; [apply X; auto|].
    destruct (np_nat _ B1 N) as [C1 C2]. rewrite <- C2. apply Y; auto.
  - cbn [bind]. apply Y; auto.
Qed.

(** Where the joint comes from. *)
Definition sw (i : nat) : nat :=
  if nth i np 0 =? -1 then 0%nat else if nth i np 0 =? nth i lam 0 then i else Z.to_nat (nth i np 0%Z).

Lemma swap_with_ok i : (i < n)%nat -> swap_with nodes (node_of lam np i) = Ok (Z.of_nat (sw i)).
Proof.
  intros Hi. unfold swap_with, sw. cbn [node_of new_parent_old parent_changed link_idx_old].
  destruct (Z.eqb_spec (nth i np 0%Z) (-1)) as [E|N].
  - assert (E0 : nth 0 lam 0 = -1).
    { assert (H0 : (0 < n)%nat) by lia. pose proof (lam_range lam np HLN TP 0 H0). lia. }
    assert (ES : seq 0 n = 0%nat :: seq 1 (n - 1)).
    { replace n with (S (n - 1)) at 1 by lia. reflexivity. }
    rewrite ES. cbn [map first_root node_of old_parent_old]. rewrite E0. reflexivity.
  - destruct (Z.eqb_spec (nth i np 0%Z) (nth i lam 0)); cbn [negb]; auto.
    destruct (np_nat i Hi N) as [B1 B2]. now rewrite B2.
Qed.

Lemma sw_lt i : (i < n)%nat -> (sw i < n)%nat.
Proof.
  intros Hi. unfold sw. destruct (Z.eqb_spec (nth i np 0%Z) (-1)) as [E|N]; [lia|].
  destruct (Z.eqb_spec (nth i np 0%Z) (nth i lam 0)); auto. now destruct (np_nat i Hi N).
Qed.

Lemma sw_joint_from i : (i < n)%nat -> joint_from lam np i (sw i).
Proof.
  intros Hi. unfold sw. destruct (Z.eqb_spec (nth i np 0%Z) (-1)) as [E|N].
  - apply jf_root.
    + rewrite <- E. now apply nth_error_nth_in.
    + assert (H0 : (0 < n)%nat) by lia. pose proof (lam_range lam np HLN TP 0 H0).
      replace (-1) with (nth 0 lam 0) by lia. apply nth_error_nth_in. rewrite HLN. lia.
    + lia.
  - destruct (np_nat i Hi N) as [B1 B2]. destruct (Z.eqb_spec (nth i np 0%Z) (nth i lam 0)) as [E|N2].
    + apply jf_same with (p := Z.to_nat (nth i np 0%Z)); rewrite B2; [now apply nth_error_nth_in|].
      rewrite E. apply nth_error_nth_in. rewrite HLN; auto.
    + apply jf_reversed; rewrite B2; [now apply nth_error_nth_in|]. intros X. apply (nth_of_nth_error _ _ 0) in X. congruence.
Qed.

(** ** Assembly *)
Variable vs : list view.
Hypothesis V : views W s vs.
Hypothesis FV : Forall (valid_view ops) vs.

Lemma LV : length vs = n.
Proof. destruct V as (_ & _ & _ & _ & E & _). rewrite <- E. apply HLN. Qed.

Definition new_view (v0 : view) (t1 : nat -> T) (lo hi : nat -> P) (i : nat) : view :=
  let v := nth i vs v0 in let w := nth (sw i) vs v0 in
  mkView (v_name v) (v_type w)
    (mkLink (t1 i) (p_lo A (lo i) (hi i)) (p_hi A (lo i) (hi i)) (l_jp (v_link w)) (l_rest (v_link v)))
    (v_omc v) (v_damping w) (v_armature w) (v_stiffness w) (v_zeropoint w).

Lemma swapped_ok v0 : swapped_joint_properties W s nodes =
  Ok (map (fun i => let w := nth (sw i) vs v0 in (dasz_of w, v_type w, l_jp (v_link w))) (seq 0 n)).
Proof.
  unfold swapped_joint_properties. rewrite (views_per_link_arrays _ _ _ V). cbn [bind].
  destruct V as (A1 & A2 & A3 & A4 & A5 & _). rewrite A2, A3.
  rewrite map_map, combine_map, combine_map.
  set (f := fun v : view => (dasz_of v, v_type v, l_jp (v_link v))).
  change (map (fun x : view => (dasz_of x, v_type x, l_jp (v_link x))) vs) with (map f vs).
  rewrite (mapM_all _ (fun nd => f (nth (sw (link_idx_old nd)) vs v0))).
  - rewrite map_map. f_equal.
  - intros nd Hnd. apply in_map_iff in Hnd. destruct Hnd as (i & <- & Hi). apply in_seq in Hi.
    rewrite swap_with_ok by lia. cbn [bind node_of link_idx_old]. 
    rewrite (py_get_nth _ _ (f v0)) by (rewrite map_length, LV; apply sw_lt; lia). now rewrite map_nth.
Qed.

Lemma permute_ok {B} (f : nat -> B) (l : list B) : l = map f (seq 0 n) ->
  permute (map Z.of_nat pi) l = Ok (map f pi).
Proof.
  intros ->. unfold permute. rewrite (mapM_all _ (fun z => f (Z.to_nat z))).
  - rewrite map_map. f_equal. apply map_ext. intros. now rewrite Nat2Z.id.
  - intros z Hz. apply in_map_iff in Hz. destruct Hz as (i & <- & Hi). rewrite Nat2Z.id.
    apply perm_lt in Hi. apply py_get_nat. rewrite nth_error_map, nth_error_nth_in with (d := 0%nat) by (now rewrite seq_length).
    rewrite seq_nth by auto. reflexivity.
Qed.

Lemma map_as_seq {B} (f : view -> B) v0 : map f vs = map (fun i => f (nth i vs v0)) (seq 0 n).
Proof.
  apply nth_error_ext. intros i. rewrite !nth_error_map. destruct (Nat.lt_ge_cases i n) as [H|H].
  - rewrite (nth_error_nth_in vs i v0) by (rewrite LV; auto).
    rewrite (nth_error_nth_in (seq 0 n) i 0%nat) by (now rewrite seq_length). rewrite seq_nth by auto. reflexivity.
  - rewrite (proj2 (nth_error_None vs i)) by (rewrite LV; auto).
    rewrite (proj2 (nth_error_None (seq 0 n) i)) by (now rewrite seq_length). reflexivity.
Qed.

Lemma permute_geoms_ok gs : Forall (fun g => -1 <= fst g < Z.of_nat n) gs ->
  permute_geoms nodes gs = Ok (map (fun g => (ren np (fst g), snd g)) gs : list (Z * (T * G))).
Proof.
  intros FG. unfold permute_geoms. apply mapM_all. intros g Hg. rewrite Forall_forall in FG. specialize (FG g Hg). cbv beta in FG.
  unfold ren. destruct (Z.eqb_spec (fst g) (-1)) as [E|N].
  - rewrite <- E. now destruct g.
  - replace (fst g) with (Z.of_nat (Z.to_nat (fst g))) at 1 by lia.
    rewrite (py_get_nat _ _ _ (nth_error_nodes (Z.to_nat (fst g)) ltac:(lia))). reflexivity.
Qed.

Lemma mapM_choose {B} (d : B) (f : nat -> result B) : (forall i, (i < n)%nat -> exists b, f i = Ok b) ->
  exists g, mapM f (seq 0 n) = Ok (map g (seq 0 n)) /\ forall i, (i < n)%nat -> f i = Ok (g i).
Proof.
  intros H. exists (fun i => match f i with Ok b => b | Err _ => d end). split.
  - apply mapM_all. intros i Hi. apply in_seq in Hi. destruct (H i) as [b ->]; auto; lia.
  - intros i Hi. destruct (H i Hi) as [b ->]. reflexivity.
Qed.

Definition raw (v0 : view) (t1 : nat -> T) (lo hi : nat -> P) (x : list T) : Sys :=
  let vs' := map (new_view v0 t1 lo hi) pi in
  mkSys (map (fun i => ren np (nth i np 0%Z)) pi) (map v_link vs') (map v_type vs')
    (concat (map v_damping vs')) (concat (map v_armature vs')) (concat (map v_stiffness vs')) (concat (map v_zeropoint vs'))
    (sys_dt s) (map (fun g => (ren np (fst g), snd g)) (map (geom_of x) (geoms s))) (gravity s) (integration_method s) (mass_mat_iters s)
    (map v_name vs') (model_name s) (map v_omc vs').

Lemma geoms_range : Forall (fun g => -1 <= fst g < Z.of_nat n) (geoms s).
Proof.
  pose proof (wf_geoms _ _ WF) as F. eapply Forall_impl; [|exact F]. intros g Hg. cbv beta in Hg. rewrite HLN in Hg. exact Hg.
Qed.

Lemma pi_nonempty : n <> 0%nat -> pi <> [].
Proof.
  intros N E. assert (H : In 0%nat pi) by (apply in_perm, AH; lia). rewrite E in H. destruct H.
Qed.

Lemma morph_unfold v0 : n <> 0%nat -> In v0 vs -> exists x xm lo hi,
  fk_default A jt s (map l_t1 (links s)) = Ok x /\ length x = n /\
  x_moved nodes x = Ok xm /\ length xm = n /\
  (forall i, (i < n)%nat -> new_pos A jt s nodes l_pmin i = Ok (lo i)) /\
  (forall i, (i < n)%nat -> new_pos A jt s nodes l_pmax i = Ok (hi i)) /\
  morph_parents W ops A jt s np = parse W ops (raw v0 (t1_of xm) lo hi x).
Proof.
  intros NE _. unfold morph_parents. rewrite HN, Nat.eqb_refl. cbn [assert_ bind].
  rewrite (identify_ok lam np HLN TP s eq_refl AH EK). cbn [bind].
  destruct (fk_default_ok (map l_t1 (links s))) as (x & EX & LX & _); [rewrite map_length; apply links_length|].
  rewrite EX. cbn [bind].
  destruct (x_moved_ok x LX) as (xm & EM & LM & _). rewrite EM. cbn [bind].
  rewrite move_geoms_ok by (auto; apply geoms_range). cbn [bind]. rewrite <- HN.
  rewrite (mapM_all _ (t1_of xm)) by (intros i Hi; apply in_seq in Hi; apply new_t1_ok; auto; lia). cbn [bind].
  destruct (mapM_choose (l_pmin (v_link v0)) (new_pos A jt s nodes l_pmin)) as (lo & ELO & LO); [intros; now apply new_pos_ok|].
  destruct (mapM_choose (l_pmin (v_link v0)) (new_pos A jt s nodes l_pmax)) as (hi & EHI & HI); [intros; now apply new_pos_ok|].
  rewrite ELO, EHI. cbn [bind]. rewrite (swapped_ok v0). cbn [bind].
  exists x, xm, lo, hi. repeat (split; [solve [auto]|]).
  rewrite (permute_ok (fun i => let w := nth (sw i) vs v0 in (dasz_of w, v_type w, l_jp (v_link w)))) by reflexivity. cbn [bind].
  destruct V as (A1 & A2 & A3 & A4 & A5 & _).
  rewrite (permute_ok (fun i => let l := v_link (nth i vs v0) in
      mkLink (t1_of xm i) (p_lo A (lo i) (hi i)) (p_hi A (lo i) (hi i)) (l_jp l) (l_rest l))).
  2:{ rewrite A3, (map_as_seq v_link v0), !combine_map, map_map. reflexivity. }
  cbn [bind]. rewrite (permute_ok (fun i => v_name (nth i vs v0))) by (rewrite A1; apply map_as_seq). cbn [bind].
  rewrite (permute_ok (fun i => v_omc (nth i vs v0))) by (rewrite A4; apply map_as_seq). cbn [bind].
  rewrite !map_map. cbv zeta. cbn [fst snd dasz_of].
  assert (NP := pi_nonempty NE).
  assert (C : forall B (f : nat -> list B), concatenate (map f pi) = Ok (concat (map f pi))).
  { intros B f. apply concatenate_nonempty. intros E. apply map_eq_nil in E. auto. }
  rewrite !C. cbn [bind]. rewrite permute_geoms_ok.
  2:{ apply Forall_map. eapply Forall_impl; [|exact geoms_range]. intros g Hg. cbv beta in Hg. unfold geom_of.
      destruct (_ && _); auto. }
  cbn [bind]. rewrite combine_map, map_map. cbn [fst snd l_t1 l_pmin l_pmax l_rest].
  unfold raw. rewrite !map_map. reflexivity.
Qed.

(** Widths, link by link. *)
Lemma view_widths v : In v vs -> qW W (v_type v) = Some (length (v_zeropoint v)) /\
  dW W (v_type v) = Some (length (v_damping v)) /\ length (v_armature v) = length (v_damping v) /\
  length (v_stiffness v) = length (v_damping v).
Proof.
  intros Hv. destruct (views_widths _ _ _ V) as (qs & ds & Q & D & E1 & E2 & E3 & E4).
  destruct (In_nth_error _ _ Hv) as [i Hi]. subst qs ds.
  assert (X : forall B C (f : view -> B) (g : B -> C), nth_error (map g (map f vs)) i = Some (g (f v))).
  { intros. rewrite !nth_error_map, Hi. reflexivity. }
  assert (Y : nth_error (map v_type vs) i = Some (v_type v)) by (rewrite nth_error_map, Hi; reflexivity).
  split; [|split; [|split]].
  - exact (Forall2_nth _ _ _ _ _ _ Q Y (X _ _ v_zeropoint (@length K))).
  - exact (Forall2_nth _ _ _ _ _ _ D Y (X _ _ v_damping (@length K))).
  - pose proof (X _ _ v_damping (@length K)) as U. rewrite <- E2 in U. rewrite (X _ _ v_armature (@length K)) in U. congruence.
  - pose proof (X _ _ v_damping (@length K)) as U. rewrite <- E3 in U. rewrite (X _ _ v_stiffness (@length K)) in U. congruence.
Qed.

Lemma nth_vs_In i v0 : (i < n)%nat -> In (nth i vs v0) vs.
Proof. intros H. apply nth_In. rewrite LV. auto. Qed.

Lemma raw_views v0 t1 lo hi x : views W (raw v0 t1 lo hi x) (map (new_view v0 t1 lo hi) pi).
Proof.
  assert (X : forall v, In v (map (new_view v0 t1 lo hi) pi) -> qW W (v_type v) = Some (length (v_zeropoint v)) /\
     dW W (v_type v) = Some (length (v_damping v)) /\ length (v_armature v) = length (v_damping v) /\
     length (v_stiffness v) = length (v_damping v)).
  { intros v Hv. apply in_map_iff in Hv. destruct Hv as (i & <- & Hi). apply perm_lt in Hi. apply sw_lt in Hi.
    apply (nth_vs_In _ v0) in Hi. exact (view_widths _ Hi). }
  unfold raw. apply views_mk with (qs := map (@length K) (map v_zeropoint (map (new_view v0 t1 lo hi) pi)))
    (ds := map (@length K) (map v_damping (map (new_view v0 t1 lo hi) pi))); auto.
  - now rewrite !map_length.
  - revert X. generalize (map (new_view v0 t1 lo hi) pi). induction l as [|v l IH]; intros X; constructor; [|apply IH; intros; apply X; now right].
    apply X. now left.
  - revert X. generalize (map (new_view v0 t1 lo hi) pi). induction l as [|v l IH]; intros X; constructor; [|apply IH; intros; apply X; now right].
    apply X. now left.
  - rewrite !(map_map _ (@length K)). apply map_ext_in. intros v Hv. apply X. exact Hv.
  - rewrite !(map_map _ (@length K)). apply map_ext_in. intros v Hv. apply X. exact Hv.
Qed.

Lemma length_pi : length pi = n.
Proof. rewrite (Permutation_length (perm_permutation np AH)). apply seq_length. Qed.

Lemma ren_range z : -1 <= z < Z.of_nat n -> -1 <= ren np z < Z.of_nat n.
Proof.
  intros Hz. unfold ren. destruct (Z.eqb_spec z (-1)) as [->|N]; [lia|].
  assert (E : nth_error pi (inv_at np (Z.to_nat z)) = Some (Z.to_nat z)) by (apply (inv_at_nth lam np HLN), AH; lia).
  assert (inv_at np (Z.to_nat z) < length pi)%nat by (apply nth_error_Some; congruence). rewrite length_pi in *. lia.
Qed.

Lemma raw_parse v0 t1 lo hi x : parse W ops (raw v0 t1 lo hi x) = Ok (parse_post ops (raw v0 t1 lo hi x)).
Proof.
  apply parse_iff. split; auto. split; [|split].
  - unfold raw. cbn [link_names]. rewrite map_map. cbn [new_view v_name].
    apply (Permutation_NoDup (l := link_names s)); [|apply (wf_unique _ _ WF)].
    destruct V as (A1 & _). rewrite A1, (map_as_seq v_name v0). apply Permutation_map. symmetry. now apply perm_permutation.
  - unfold num_links, raw. cbn [link_parents geoms]. rewrite map_length, length_pi. apply Forall_map, Forall_map.
    eapply Forall_impl; [|exact geoms_range]. intros g Hg. cbv beta in Hg. cbn [fst].
    unfold geom_of. destruct (_ && _); cbn [fst]; now apply ren_range.
  - exists (map (new_view v0 t1 lo hi) pi). split; [apply raw_views|]. apply Forall_map. apply Forall_forall. intros i Hi.
    apply perm_lt in Hi. pose proof (nth_vs_In _ v0 (sw_lt i Hi)) as Hw. rewrite Forall_forall in FV. apply FV in Hw.
    split; [apply (ll_sorted _ _ llaws)|apply Hw].
Qed.

Lemma attached_ren (gs : list (Z * (T * G))) z : -1 <= z < Z.of_nat n -> Forall (fun g => -1 <= fst g < Z.of_nat n) gs ->
  attached (ren np z) (map (fun g => (ren np (fst g), snd g)) gs) = attached z gs.
Proof.
  intros Hz. induction gs as [|[y g] gs IH]; intros F; simpl; auto. inversion F as [|? ? F1 F2]; subst. simpl in F1. rewrite IH by auto.
  destruct (Z.eq_dec (ren np y) (ren np z)) as [E|N], (Z.eq_dec y z) as [E'|N']; auto; try congruence.
  exfalso. apply N'. unfold ren in E.
  destruct (Z.eqb_spec y (-1)), (Z.eqb_spec z (-1)); try lia.
  assert (E1 : nth_error pi (inv_at np (Z.to_nat z)) = Some (Z.to_nat z)) by (apply (inv_at_nth lam np HLN), AH; lia).
  assert (E2 : nth_error pi (inv_at np (Z.to_nat y)) = Some (Z.to_nat y)) by (apply (inv_at_nth lam np HLN), AH; lia).
  apply Nat2Z.inj in E. rewrite E, E1 in E2. assert (Z.to_nat z = Z.to_nat y) by congruence. lia.
Qed.

Definition tgeom_of (x : list T) (i : nat) (g : T * G) : T * G := if mv i then (tmul A (fst g) (shift x i), snd g) else g.

Lemma attached_geom_of x (gs : list (Z * (T * G))) i :
  attached (Z.of_nat i) (map (geom_of x) gs) = map (tgeom_of x i) (attached (Z.of_nat i) gs).
Proof.
  induction gs as [|[y g] gs IH]; simpl; auto. unfold geom_of at 1. cbn [fst snd].
  destruct (Z.eq_dec y (Z.of_nat i)) as [->|N].
  - rewrite Nat2Z.id. replace (0 <=? Z.of_nat i) with true by (symmetry; apply Z.leb_le; lia). unfold tgeom_of at 1. cbn [andb map].
    destruct (mv i) eqn:M.
    + destruct (Z.eq_dec (Z.of_nat i) (Z.of_nat i)) as [_|?]; [|congruence]. rewrite IH. cbn [map]. f_equal. unfold tgeom_of. rewrite M. reflexivity.
    + destruct (Z.eq_dec (Z.of_nat i) (Z.of_nat i)) as [_|?]; [|congruence]. rewrite IH. cbn [map]. f_equal. unfold tgeom_of. rewrite M. reflexivity.
  - destruct (_ && _); destruct (Z.eq_dec y (Z.of_nat i)); try congruence; auto.
Qed.

Lemma attached_geom_world x (gs : list (Z * (T * G))) : attached (-1) (map (geom_of x) gs) = attached (-1) gs.
Proof.
  induction gs as [|[y g] gs IH]; auto. cbn [map attached]. unfold geom_of at 1. cbn [fst snd].
  destruct (Z.eq_dec y (-1)) as [->|N].
  - change (0 <=? -1) with false. cbn [andb]. destruct (Z.eq_dec (-1) (-1)); [|congruence]. now rewrite IH.
  - destruct (_ && _); destruct (Z.eq_dec y (-1)); try congruence; auto.
Qed.

Lemma range_geom_of x : Forall (fun g => -1 <= fst g < Z.of_nat n) (map (geom_of x) (geoms s)).
Proof.
  apply Forall_map. eapply Forall_impl; [|exact geoms_range]. intros g Hg. cbv beta in Hg. unfold geom_of. destruct (_ && _); auto.
Qed.

Lemma ren_pi m i : nth_error pi m = Some i -> ren np (Z.of_nat i) = Z.of_nat m /\ (i < n)%nat.
Proof.
  intros H. assert (Hi : (i < n)%nat) by (apply perm_lt; eapply nth_error_In; eauto). split; auto.
  unfold ren. destruct (Z.eqb_spec (Z.of_nat i) (-1)); [lia|]. rewrite Nat2Z.id. f_equal. now apply (inv_at_eq lam np HLN).
Qed.

Lemma final_geoms v0 t1 lo hi x m i : nth_error pi m = Some i ->
  attached (Z.of_nat m) (geoms (parse_post ops (raw v0 t1 lo hi x))) = map (tgeom_of x i) (attached (Z.of_nat i) (geoms s)).
Proof.
  intros H. destruct (ren_pi m i H) as [E Hi]. unfold parse_post, raw, set_links_geoms. cbn [geoms]. rewrite attached_sort, <- E, attached_ren; [|lia|apply range_geom_of].
  apply attached_geom_of.
Qed.

Theorem morph_parsed v0 t1 lo hi x : let s' := parse_post ops (raw v0 t1 lo hi x) in
  parsed W ops s' /\ morphed W s np pi s'.
Proof.
  intros s'. split.
  { eapply parse_parsed; [exact laws|apply raw_parse|]. unfold raw. cbn [link_parents]. now apply (new_topo lam np HLN). }
  constructor.
  - rewrite <- HN. now apply perm_permutation.
  - unfold s', parse_post, raw, set_links_geoms. cbn [link_parents]. 
    assert (F : forall l, (forall i, In i l -> (i < n)%nat) -> Forall2 (fun i p' => exists p, nth_error np i = Some p /\ same_parent pi p p') l
                 (map (fun i => ren np (nth i np 0%Z)) l)).
    { induction l as [|i l IH]; intros Hl; constructor; [|apply IH; intros; apply Hl; now right].
      assert (Hi : (i < n)%nat) by (apply Hl; now left). exists (nth i np 0%Z). split; [now apply nth_error_nth_in|].
      apply (same_parent_ren lam np HLN); auto. apply (np_range lam np HLN); auto. }
    apply F. intros i Hi. now apply perm_lt in Hi.
  - unfold s', parse_post, raw, set_links_geoms. cbn [link_parents]. now apply (new_topo lam np HLN).
  - exists vs, (inertia_views ops (geoms (raw v0 t1 lo hi x)) (map (new_view v0 t1 lo hi) pi)).
    split; auto. split; [apply parse_post_views, raw_views|].
    intros m i v Hm Hv. destruct (ren_pi m i Hm) as [_ Hi].
    exists (sw i), (nth (sw i) vs v0). unfold inertia_views, enum.
    eexists. split; [now apply sw_joint_from|]. split; [apply nth_error_nth_in; rewrite LV; now apply sw_lt|].
    split; [rewrite nth_error_map, nth_error_enum_from, nth_error_map, Hm; reflexivity|].
    cbn [fst snd set_v_link v_name v_omc v_type v_damping v_armature v_stiffness v_zeropoint v_link new_view].
    rewrite (nth_of_nth_error _ _ v0 _ Hv). rewrite (ll_jp _ _ llaws). repeat (split; auto).
  - intros m i Hm. unfold s'. rewrite (final_geoms v0 t1 lo hi x m i Hm), map_map. apply map_ext. intros g. unfold tgeom_of.
    destruct (mv i); reflexivity.
  - unfold s', parse_post, raw, set_links_geoms. cbn [geoms]. rewrite attached_sort. change (-1) with (ren np (-1)) at 1.
    rewrite attached_ren; [apply attached_geom_world|lia|apply range_geom_of].
  - unfold s', parse_post, raw, set_links_geoms. cbn. auto.
Qed.

(** ** Poses *)
Hypothesis glaws : talg_laws A.
Hypothesis JT : forall i ty l, nth_error (link_types s) i = Some ty -> nth_error (links s) i = Some l -> jt ty (l_jp l) = tid A.

Lemma posed_unique (s0 : Sys) xs xs' : wf W s0 -> posed A jt s0 xs -> posed A jt s0 xs' -> xs = xs'.
Proof.
  intros W0 (L1 & H1) (L2 & H2). unfold num_links in *.
  assert (X : forall i, nth_error xs i = nth_error xs' i).
  { intros i. induction i as [i IH] using lt_wf_ind. destruct (Nat.lt_ge_cases i (length (link_parents s0))) as [Hi|Hi].
    - destruct (nth_error (link_parents s0) i) as [p|] eqn:Ep; [|apply nth_error_None in Ep; lia].
      destruct (nth_error (link_types s0) i) as [ty|] eqn:Et; [|apply nth_error_None in Et; rewrite (wf_types _ _ W0) in Et; lia].
      destruct (nth_error (links s0) i) as [l|] eqn:El; [|apply nth_error_None in El; rewrite (wf_links _ _ W0) in El; lia].
      destruct (nth_error xs i) as [x|] eqn:Ex; [|apply nth_error_None in Ex; lia].
      destruct (nth_error xs' i) as [x'|] eqn:Ex'; [|apply nth_error_None in Ex'; lia].
      destruct (H1 i p ty l x Ep Et El Ex) as (xp & P1 & ->). destruct (H2 i p ty l x' Ep Et El Ex') as (xp' & P2 & ->).
      assert (xp = xp'); [|congruence].
      destruct P1 as [[E1 ->]|(k & E1 & K1)], P2 as [[E2 ->]|(k' & E2 & K2)]; auto; try lia.
      assert (k = k') by lia. subst k'. pose proof (wf_topo _ _ W0 _ _ Ep). rewrite IH in K1 by lia. congruence.
    - rewrite !(proj2 (nth_error_None _ _)) by lia. reflexivity. }
  now apply nth_error_ext.
Qed.

Lemma fk_posed x : fk_default A jt s (map l_t1 (links s)) = Ok x -> posed A jt s x.
Proof.
  intros E. destruct (fk_default_ok (map l_t1 (links s))) as (x' & E' & LX & S); [rewrite map_length; apply links_length|].
  assert (x' = x) by congruence. subst x'. split; [congruence|]. intros i p ty l xi Hp Ht Hl Hx.
  pose proof (S i l ty Hl Ht) as F. rewrite (nth_of_nth_error _ _ _ _ Hx), (nth_of_nth_error _ _ _ _ Hp) in F.
  assert (M : nth i (map l_t1 (links s)) (tid A) = l_t1 l) by (apply nth_of_nth_error; rewrite nth_error_map, Hl; reflexivity).
  rewrite M in F. exists (xat A x p). split; [|exact F]. unfold xat. destruct (Z.eqb_spec p (-1)) as [->|N]; [left; auto|right].
  pose proof (TP i p Hp). exists (Z.to_nat p). split; [lia|]. apply nth_error_nth_in.
  assert (i < length x)%nat by (apply nth_error_Some; congruence). lia.
Qed.

Lemma JTv v : In v vs -> jt (v_type v) (l_jp (v_link v)) = tid A.
Proof.
  intros Hv. destruct (In_nth_error _ _ Hv) as [i Hi]. destruct V as (A1 & A2 & A3 & _). apply (JT i).
  - rewrite A2, nth_error_map, Hi. reflexivity.
  - rewrite A3, nth_error_map, Hi. reflexivity.
Qed.

Lemma poses_new v0 lo hi x xm xs' : length xm = n ->
  posed A jt (parse_post ops (raw v0 (t1_of xm) lo hi x)) xs' ->
  forall m i, nth_error pi m = Some i -> nth_error xs' m = Some (nth i xm (tid A)).
Proof.
  intros LM (L1 & H1). induction m as [m IH] using lt_wf_ind. intros i Hm.
  destruct (ren_pi m i Hm) as [_ Hi].
  assert (Lm : (m < n)%nat) by (rewrite <- length_pi; apply nth_error_Some; congruence).
  assert (LN : length xs' = n).
  { rewrite L1. unfold num_links, parse_post, raw, set_links_geoms. cbn [link_parents]. rewrite map_length. apply length_pi. }
  destruct (nth_error xs' m) as [x'|] eqn:Ex'; [|apply nth_error_None in Ex'; lia]. f_equal.
  assert (Q1 : nth_error (link_parents (parse_post ops (raw v0 (t1_of xm) lo hi x))) m = Some (ren np (nth i np 0%Z))).
  { unfold parse_post, raw, set_links_geoms. cbn [link_parents]. rewrite nth_error_map, Hm. reflexivity. }
  assert (Q2 : nth_error (link_types (parse_post ops (raw v0 (t1_of xm) lo hi x))) m = Some (v_type (nth (sw i) vs v0))).
  { unfold parse_post, raw, set_links_geoms. cbn [link_types]. rewrite !nth_error_map, Hm. reflexivity. }
  assert (Q3 : exists gs l, nth_error (links (parse_post ops (raw v0 (t1_of xm) lo hi x))) m = Some (with_inertia ops gs l) /\
      l_t1 l = t1_of xm i /\ l_jp l = l_jp (v_link (nth (sw i) vs v0))).
  { unfold parse_post, raw, set_links_geoms. cbn [links]. unfold enum. rewrite nth_error_map, nth_error_enum_from, !nth_error_map, Hm. cbn [option_map].
    eexists _, _. split; [reflexivity|]. split; reflexivity. }
  destruct Q3 as (gs & l & Q3 & Q4 & Q5).
  destruct (H1 m _ _ _ _ Q1 Q2 Q3 Ex') as (xp & PP & ->).
  rewrite (ll_jp _ _ llaws), (ll_t1 _ _ llaws), Q4, Q5, JTv by (apply nth_vs_In; now apply sw_lt).
  assert (EX : xp = xat A xm (nth i np 0%Z)).
  { unfold ren, xat in *. destruct (Z.eqb_spec (nth i np 0%Z) (-1)) as [E|N].
    - destruct PP as [[_ ->]|(k & Ek & _)]; [auto|lia].
    - destruct PP as [[Ek _]|(k & Ek & Kk)]; [lia|]. apply Nat2Z.inj in Ek.
      destruct (np_nat i Hi N) as [B1 B2].
      assert (E1 : nth_error pi k = Some (Z.to_nat (nth i np 0%Z))) by (rewrite <- Ek; apply (inv_at_nth lam np HLN); auto).
      assert (Hk : (k < m)%nat).
      { pose proof (new_topo lam np HLN AH m (ren np (nth i np 0%Z))) as NT. 
        rewrite nth_error_map, Hm in NT. specialize (NT eq_refl). unfold ren in NT. destruct (Z.eqb_spec (nth i np 0%Z) (-1)); [congruence|]. rewrite Ek in NT. lia. }
      rewrite (IH k Hk _ E1) in Kk. congruence. }
  subst xp. unfold t1_of. rewrite (tg_id_l _ glaws), (tg_assoc _ glaws), (tg_inv_l _ glaws), (tg_id_r _ glaws). reflexivity.
Qed.

Lemma geom_pose x xm i g : (i < n)%nat -> (forall i, (i < n)%nat -> nth i xm (tid A) = if mv i then xat A x (nth i np 0%Z) else nth i x (tid A)) ->
  snd (tgeom_of x i g) = snd g /\ tmul A (fst (tgeom_of x i g)) (nth i xm (tid A)) = tmul A (fst g) (nth i x (tid A)).
Proof.
  intros Hi S. rewrite S by auto. unfold tgeom_of. destruct (mv i); cbn [fst snd]; auto. split; auto.
  unfold shift. rewrite !(tg_assoc _ glaws), (tg_inv_l _ glaws), (tg_id_r _ glaws). reflexivity.
Qed.
End Morph.
