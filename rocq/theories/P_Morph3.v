(** * morph_system: the theorems. *)
From Coq Require Import String ZArith Lia Bool List Permutation.
From Verif Require Import Prelude M_Sys S_Sys S_Morph M_Compose M_Morph S_Morph2 P_Scan P_Sys P_Delete P_Tree P_Reroot P_Dfs P_Morph P_Morph2.
Import ListNotations.
Local Open Scope Z_scope.

Lemma topo_hangs lam i : topo lam -> (i < length lam)%nat -> hangs lam i.
Proof.
  intros T. induction i as [i IH] using lt_wf_ind. intros Hi.
  destruct (nth_error lam i) as [p|] eqn:E; [|apply nth_error_None in E; lia]. pose proof (T i p E).
  destruct (Z.eq_dec p (-1)) as [->|N]; [now apply hangs_root|].
  apply hangs_step with (p := Z.to_nat p); [rewrite E; f_equal; lia|]. apply IH; lia.
Qed.

(** Under depth-first numbering the permutation is the identity. *)
Lemma sorted_flat_map (f : nat -> list nat) : forall len k,
  (forall i, (k <= i < k + len)%nat -> increasing (f i)) ->
  (forall i j a b, (k <= i)%nat -> (i < j)%nat -> (j < k + len)%nat -> In a (f i) -> In b (f j) -> (a < b)%nat) ->
  increasing (flat_map f (seq k len)).
Proof.
  induction len as [|len IH]; intros k H1 H2; cbn [seq flat_map].
  - intros [|a] b i j _; discriminate.
  - assert (I1 : increasing (f k)) by (apply H1; lia).
    assert (I2 : increasing (flat_map f (seq (S k) len))).
    { apply IH; [intros i Hi; apply H1; lia|]. intros i j a b Hi Hj Hl. apply H2; lia. }
    intros a b i j Hab Ha Hb.
    destruct (Nat.lt_ge_cases a (length (f k))) as [La|La], (Nat.lt_ge_cases b (length (f k))) as [Lb|Lb]; try lia.
    + rewrite nth_error_app1 in Ha, Hb by auto. exact (I1 a b i j Hab Ha Hb).
    + rewrite nth_error_app1 in Ha by auto. rewrite nth_error_app2 in Hb by auto.
      apply nth_error_In in Ha, Hb. apply in_flat_map in Hb. destruct Hb as (c & Hc & Hjc). apply in_seq in Hc.
      apply (H2 k c); auto; lia.
    + rewrite nth_error_app2 in Ha, Hb by auto. refine (I2 _ _ i j _ Ha Hb). lia.
Qed.

Lemma increasing_cons x l : increasing l -> (forall y, In y l -> (x < y)%nat) -> increasing (x :: l).
Proof.
  intros I H [|a] [|b] i j Hab Ha Hb; simpl in *; try lia.
  - assert (i = x) by congruence. subst. apply H. eapply nth_error_In; eauto.
  - refine (I a b i j _ Ha Hb). lia.
Qed.

Lemma increasing_unique l1 : forall l2, increasing l1 -> increasing l2 -> (forall x, In x l1 <-> In x l2) -> l1 = l2.
Proof.
  assert (TL : forall x l, increasing (x :: l) -> increasing l /\ forall y, In y l -> (x < y)%nat).
  { intros x l I. split.
    - intros a b i j Hab Ha Hb. exact (I (S a) (S b) i j ltac:(lia) Ha Hb).
    - intros y Hy. destruct (In_nth_error _ _ Hy) as [k Hk]. exact (I 0%nat (S k) x y ltac:(lia) eq_refl Hk). }
  induction l1 as [|x l1 IH]; intros [|y l2] I1 I2 H; auto.
  - exfalso. apply (proj2 (H y)). now left.
  - exfalso. apply (proj1 (H x)). now left.
  - destruct (TL _ _ I1) as [J1 M1], (TL _ _ I2) as [J2 M2].
    assert (x = y).
    { destruct (proj1 (H x) (or_introl eq_refl)) as [|Hx]; auto. destruct (proj2 (H y) (or_introl eq_refl)) as [|Hy]; auto.
      apply M2 in Hx. apply M1 in Hy. lia. }
    subst y. f_equal. apply IH; auto. intros z. split; intros Hz.
    + destruct (proj1 (H z) (or_intror Hz)) as [<-|]; auto. apply M1 in Hz. lia.
    + destruct (proj2 (H z) (or_intror Hz)) as [<-|]; auto. apply M2 in Hz. lia.
Qed.

Section DepthFirst.
Variable lam : list Z.
Hypothesis T : topo lam.
Hypothesis DF : depth_first lam.

Lemma pre_descends : forall fuel b j, In j (pre lam fuel (Z.of_nat b)) -> descends lam b j /\ b <> j.
Proof.
  induction fuel as [|k IH]; intros b j H; cbn [pre] in H; [destruct H|].
  apply in_flat_map in H. destruct H as (i & Hi & Hj). destruct (nth_error lam i) as [p|] eqn:E; [|destruct Hj].
  destruct (Z.eqb_spec p (Z.of_nat b)) as [->|]; [|destruct Hj].
  assert (Db : descends lam b i) by (eapply desc_step; [exact E|constructor]).
  pose proof (T i _ E) as Hbi.
  destruct Hj as [<-|Hj].
  - split; auto. lia.
  - destruct (IH _ _ Hj) as [D N]. pose proof (topo_desc_le _ _ _ T D).
    split; [|lia]. exact (descends_trans lam b i j Db D).
Qed.

(** Later links are not below an earlier, unrelated link. *)
Lemma df_after i i' : (i < i')%nat -> ~ descends lam i i' -> forall m, (i' <= m)%nat -> (m < length lam)%nat -> ~ descends lam i m.
Proof.
  intros Hii N. induction m as [|m IH]; intros Hm Hl D.
  - replace i' with 0%nat in * by lia. auto.
  - destruct (Nat.eq_dec i' (S m)) as [->|Ne]; auto.
    apply descends_inv in D. destruct D as [E|(p & Ep & D)]; [lia|].
    pose proof (DF m p Ep) as Dp. apply IH; [lia|lia|]. exact (descends_trans lam i p m D Dp).
Qed.

Lemma siblings_not_desc z i i' : nth_error lam i = Some z -> nth_error lam i' = Some z -> (i < i')%nat -> ~ descends lam i i'.
Proof.
  intros E E' Hi D. apply descends_inv in D. destruct D as [|(p & Ep & D)]; [lia|].
  assert (Z.of_nat p = z) by congruence. subst z. pose proof (T _ _ E). pose proof (topo_desc_le _ _ _ T D). lia.
Qed.

Lemma pre_increasing : forall fuel z, increasing (pre lam fuel z).
Proof.
  induction fuel as [|k IH]; intros z; cbn [pre].
  { intros [|a] b i j _; discriminate. }
  apply sorted_flat_map.
  - intros i _. destruct (nth_error lam i) as [p|] eqn:E; [|intros [|a] b u v _; discriminate].
    destruct (Z.eqb_spec p z) as [->|]; [|intros [|a] b u v _; discriminate].
    apply increasing_cons; auto. intros y Hy. apply pre_descends in Hy. destruct Hy as [D N].
    pose proof (topo_desc_le _ _ _ T D). lia.
  - intros i j a b _ Hij Hj Ha Hb.
    assert (X : forall c e, In e (match nth_error lam c with Some p => if p =? z then c :: pre lam k (Z.of_nat c) else [] | None => [] end) ->
                nth_error lam c = Some z /\ descends lam c e).
    { intros c e He. destruct (nth_error lam c) as [p|] eqn:Ec; [|destruct He]. destruct (Z.eqb_spec p z) as [Epz|]; [|destruct He]. subst p.
      split; auto. destruct He as [<-|He]; [constructor|]. now apply pre_descends in He. }
    destruct (X i a Ha) as [E1 D1]. destruct (X j b Hb) as [E2 D2].
    pose proof (topo_desc_le _ _ _ T D2).
    destruct (Nat.lt_ge_cases a j) as [|L]; [lia|]. exfalso.
    apply (df_after i j Hij (siblings_not_desc z i j E1 E2 Hij) a L); auto.
    assert (La : hangs lam a); [|now apply hangs_lt].
    clear - T D1 E1. induction D1 as [|x p Ex D IHD]; [apply topo_hangs; auto; apply nth_error_Some; congruence|].
    eapply hangs_step; eauto.
Qed.

Lemma perm_identity : perm lam = seq 0 (length lam).
Proof.
  apply increasing_unique.
  - apply pre_increasing.
  - intros a b i j Hab Ha Hb.
    assert (La : (a < length lam)%nat) by (rewrite <- (seq_length (length lam) 0); apply nth_error_Some; congruence).
    assert (Lb : (b < length lam)%nat) by (rewrite <- (seq_length (length lam) 0); apply nth_error_Some; congruence).
    apply (nth_of_nth_error _ _ 0%nat) in Ha, Hb. rewrite seq_nth in Ha, Hb by auto. lia.
  - intros x. rewrite in_perm, in_seq. split; [intros H; apply hangs_lt in H; lia|]. intros H. apply topo_hangs; auto. lia.
Qed.
End DepthFirst.

(** With one new root every joint is used exactly once. *)
Lemma joint_from_inj lam np i i' j : topo lam -> length np = length lam -> all_hang np -> edges_kept lam np ->
  (forall a b, nth_error np a = Some (-1) -> nth_error np b = Some (-1) -> a = b) ->
  joint_from lam np i j -> joint_from lam np i' j -> i = i'.
Proof.
  intros T L AH EK U.
  assert (NC : forall a b, nth_error np a = Some (Z.of_nat b) -> nth_error np b = Some (Z.of_nat a) -> False).
  { intros a b H1 H2. assert (H : hangs np a) by (apply AH; apply nth_error_Some; congruence).
    apply path_hangs in H. destruct H as [l H].
    inversion H as [? E|? p l' E H']; subst; [assert (-1 = Z.of_nat b) by congruence; lia|].
    assert (p = b) by (apply Nat2Z.inj; congruence). subst p.
    inversion H' as [? E'|? p l'' E' H'']; subst; [assert (-1 = Z.of_nat a) by congruence; lia|].
    assert (p = a) by (apply Nat2Z.inj; congruence). subst p.
    pose proof (path_fun _ _ _ H'' _ H) as F. apply (f_equal (@length nat)) in F. simpl in F. lia. }
  assert (RR : forall i i' j, nth_error np i = Some (-1) -> nth_error lam j = Some (-1) -> joint_from lam np i' j -> nth_error np i' = Some (-1)).
  { intros a a' b Ha Hb J. inversion J as [? E1 E2 _|p E1 E2|? E1 E2]; subst; auto.
    - assert (-1 = Z.of_nat p) by congruence. lia.
    - destruct (EK _ _ E1) as [X|X]; [congruence|]. assert (-1 = Z.of_nat a') by congruence. lia. }
  intros J J'.
  inversion J as [? E1 E2 _|p E1 E2|? E1 E2]; subst.
  - pose proof (RR _ _ _ E1 E2 J'). auto.
  - inversion J' as [? F1 F2 _|p' F1 F2|? F1 F2]; subst; auto.
    + assert (-1 = Z.of_nat p) by congruence. lia.
    + destruct (EK _ _ F1) as [X|X]; [congruence|]. assert (p = i') by (apply Nat2Z.inj; congruence). subst p. exfalso. eauto.
  - destruct (EK _ _ E1) as [X|X]; [congruence|].
    inversion J' as [? F1 F2 _|p' F1 F2|? F1 F2]; subst; auto.
    + assert (-1 = Z.of_nat i) by congruence. lia.
    + assert (p' = i) by (apply Nat2Z.inj; congruence). subst p'. exfalso. eauto.
    + destruct (EK _ _ F1) as [Y|Y]; [congruence|]. apply Nat2Z.inj. congruence.
Qed.

Section Morph.
Context {K T P J R G O : Type}.
Variable W : widths.
Notation Lk := (mlink T P J R).
Notation Sys := (System K Lk (T * G) O).
Variable ops : parse_ops K Lk (T * G).
Variable A : talg T P.
Variable jt : string -> J -> T.
Hypothesis laws : ops_laws ops.
Hypothesis llaws : link_laws ops A.
Implicit Types s : Sys.

Theorem morph_total s np : parsed W ops s -> num_links s <> 0%nat -> length np = num_links s ->
  (forall i, (i < num_links s)%nat -> hangs np i) -> edges_kept (link_parents s) np ->
  exists s' perm, morph_parents W ops A jt s np = Ok s' /\ parsed W ops s' /\ morphed W s np perm s'.
Proof.
  intros PD NE HN AH EK. rewrite <- HN in AH. destruct (pd_valid _ _ _ PD) as (vs & V & FV).
  assert (EV : exists v0, In v0 vs).
  { destruct vs as [|v0 vs]; [|exists v0; now left]. exfalso. apply NE. destruct V as (_ & _ & _ & _ & E & _). exact E. }
  destruct EV as [v0 HV0].
  destruct (morph_unfold W ops A jt s np PD HN AH EK vs V v0) as (x & xm & lo & hi & _ & _ & _ & _ & _ & _ & EM).
  { congruence. } { auto. }
  destruct (morph_parsed W ops A laws llaws s np PD HN AH vs V FV v0 (t1_of A np xm) lo hi x) as [P1 P2].
  eexists _, _. rewrite EM, (raw_parse W ops A llaws s np PD HN AH vs V FV). split; [reflexivity|]. split; eauto.
Qed.

Theorem morph_wrong_length s np : length np <> num_links s -> morph_parents W ops A jt s np = Err EAssertion.
Proof. intros H. unfold morph_parents. apply Nat.eqb_neq in H. rewrite H. reflexivity. Qed.

Theorem morph_no_tree s np : length np = num_links s ->
  (exists i, (i < num_links s)%nat /\ ~ hangs np i) -> morph_parents W ops A jt s np = Err EValue.
Proof.
  intros HN (i & Hi & N). unfold morph_parents. rewrite HN, Nat.eqb_refl. cbn [assert_ bind].
  rewrite (identify_hang_err (link_parents s) np (eq_sym HN)); auto. intros H. apply N. apply H. lia.
Qed.

Theorem morph_new_edge s np : wf W s -> length np = num_links s -> (forall i, (i < num_links s)%nat -> hangs np i) ->
  ~ edges_kept (link_parents s) np -> morph_parents W ops A jt s np = Err EAssertion.
Proof.
  intros WF HN AH NK. unfold morph_parents. rewrite HN, Nat.eqb_refl. cbn [assert_ bind].
  rewrite (identify_edge_err (link_parents s) np); auto.
  - apply (wf_topo _ _ WF).
  - intros i Hi. apply AH. lia.
Qed.

Hypothesis glaws : talg_laws A.

Theorem morph_poses s np s' : parsed W ops s ->
  (forall i ty l, nth_error (link_types s) i = Some ty -> nth_error (links s) i = Some l -> jt ty (l_jp l) = tid A) ->
  morph_parents W ops A jt s np = Ok s' -> num_links s <> 0%nat ->
  exists perm, morphed W s np perm s' /\
  forall xs xs', posed A jt s xs -> posed A jt s' xs' ->
    attached (-1) (geoms s') = attached (-1) (geoms s) /\
    forall m i x x', nth_error perm m = Some i -> nth_error xs i = Some x -> nth_error xs' m = Some x' ->
      Forall2 (fun g g' => snd g' = snd g /\ tmul A (fst g') x' = tmul A (fst g) x)
        (attached (Z.of_nat i) (geoms s)) (attached (Z.of_nat m) (geoms s')).
Proof.
  intros PD JT H NE.
  destruct (Nat.eq_dec (length np) (num_links s)) as [HN|HN]; [|rewrite morph_wrong_length in H by auto; discriminate].
  assert (AH : all_hang np).
  { intros i Hi. destruct (in_dec Nat.eq_dec i (perm np)) as [I|I]; [now apply in_perm|]. exfalso.
    rewrite (morph_no_tree s np HN) in H; [discriminate|]. exists i. split; [lia|]. intros X. apply I. now apply in_perm. }
  assert (EK : edges_kept (link_parents s) np).
  { unfold morph_parents in H. rewrite HN, Nat.eqb_refl in H. cbn [assert_ bind] in H.
    apply bind_Ok in H. destruct H as (idn & H & _). unfold identify_system in H.
    rewrite new_to_old_perm, (old_to_new_ok (link_parents s) np (eq_sym HN)) in H by auto. cbn [bind] in H. apply bind_Ok in H. destruct H as (nodes & H & _).
    intros i p Hp. 
    assert (Hi : (i < length np)%nat) by (apply nth_error_Some; congruence).
    pose proof (mapM_nth _ _ _ i i H) as X. 
    assert (Si : nth_error (seq 0 (num_links s)) i = Some i).
    { rewrite <- HN, nth_error_nth_in with (d := 0%nat) by (now rewrite seq_length). now rewrite seq_nth. }
    specialize (X Si). destruct X as (nd & _ & X).
    assert (DZ : forall a b : option Z, {a = b} + {a <> b}) by (decide equality; apply Z.eq_dec).
    destruct (DZ (nth_error (link_parents s) i) (Some (Z.of_nat p))) as [|N1]; [now left|].
    destruct (DZ (nth_error (link_parents s) p) (Some (Z.of_nat i))) as [|N2]; [now right|].
    rewrite (identify_node_err (link_parents s) np) in X; auto.
    - discriminate.
    - apply (wf_topo _ _ (pd_wf _ _ _ PD)).
    - intros F. destruct (F p Hp); contradiction. }
  destruct (pd_valid _ _ _ PD) as (vs & V & FV).
  assert (EV : exists v0, In v0 vs).
  { destruct vs as [|v0 vs]; [|exists v0; now left]. exfalso. apply NE. destruct V as (_ & _ & _ & _ & E & _). exact E. }
  destruct EV as [v0 HV0].
  destruct (morph_unfold W ops A jt s np PD HN AH EK vs V v0) as (x & xm & lo & hi & EX & LX & EXM & LXM & _ & _ & EM).
  { congruence. } { auto. }
  destruct (morph_parsed W ops A laws llaws s np PD HN AH vs V FV v0 (t1_of A np xm) lo hi x) as [P1 P2].
  rewrite EM, (raw_parse W ops A llaws s np PD HN AH vs V FV) in H. injection H as <-.
  exists (perm np). split; auto. intros xs xs' Q Q'. split; [apply P2|].
  intros m i x1 x1' Hm Hx Hx'.
  pose proof (fk_posed W ops A jt s np PD HN x EX) as QX.
  assert (xs = x) by (eapply (posed_unique W A jt s np HN s); eauto; apply PD). subst xs.
  destruct (ren_pi s np HN m i Hm) as [_ Hi].
  pose proof (poses_new W ops A jt llaws s np HN AH vs V glaws JT v0 lo hi x xm xs' LXM Q' m i Hm) as PN.
  rewrite PN in Hx'. injection Hx' as <-.
  rewrite (final_geoms W ops A s np PD HN AH vs v0 (t1_of A np xm) lo hi x m i Hm).
  destruct (x_moved_ok A s np HN AH x LX) as (xm2 & E2 & _ & S2). rewrite EXM in E2. injection E2 as <-.
  clear - Hx S2 Hi glaws. induction (attached (Z.of_nat i) (geoms s)) as [|g gs IH]; constructor; auto.
  rewrite <- (nth_of_nth_error _ _ (tid A) _ Hx). apply (geom_pose A s np glaws); auto.
Qed.

(** Morphing to the current parents. *)
Theorem morph_identity s : parsed W ops s -> num_links s <> 0%nat -> depth_first (link_parents s) ->
  (forall i, nth_error (link_parents s) i = Some (-1) -> i = 0%nat) ->
  (forall i ty l, nth_error (link_types s) i = Some ty -> nth_error (links s) i = Some l -> jt ty (l_jp l) = tid A) ->
  morph_parents W ops A jt s (link_parents s) = Ok s.
Proof.
  intros PD NE DF OR JT. set (np := link_parents s).
  pose proof (wf_topo _ _ (pd_wf _ _ _ PD)) as TP.
  assert (HN : length np = num_links s) by reflexivity.
  assert (AH : all_hang np) by (intros i Hi; now apply topo_hangs).
  assert (EK : edges_kept (link_parents s) np) by (intros i p Hp; now left).
  destruct (pd_valid _ _ _ PD) as (vs & V & FV).
  assert (EV : exists v0, In v0 vs).
  { destruct vs as [|v0 vs]; [|exists v0; now left]. exfalso. apply NE. destruct V as (_ & _ & _ & _ & E & _). exact E. }
  destruct EV as [v0 HV0].
  destruct (morph_unfold W ops A jt s np PD HN AH EK vs V v0) as (x & xm & lo & hi & EX & LX & EXM & LXM & LO & HI & EM); auto.
  rewrite EM.
  assert (MV : forall i, mv s np i = false) by (intros i; unfold mv, np; now rewrite Z.eqb_refl).
  assert (XM : forall y ym, length y = length np -> x_moved (map (node_of np np) (seq 0 (length np))) y = Ok ym ->
     forall i, (i < length np)%nat -> nth i ym (tid A) = nth i y (tid A)).
  { intros y ym Ly Ey i Hi. destruct (x_moved_ok A s np HN AH y Ly) as (ym2 & E2 & _ & S2).
    assert (ym2 = ym) by (unfold np in *; congruence). subst ym2. rewrite S2, MV by auto. reflexivity. }
  assert (PI : perm np = seq 0 (length np)) by (apply perm_identity; auto).
  assert (LVn : length vs = length np) by (destruct V as (_ & _ & _ & _ & E & _); rewrite <- E; reflexivity).
  assert (IA : forall i, (i < length np)%nat -> inv_at np i = i).
  { intros i Hi. apply (inv_at_eq np np); auto. rewrite PI, nth_error_nth_in with (d := 0%nat) by (now rewrite seq_length).
    now rewrite seq_nth. }
  assert (RN : forall z, -1 <= z < Z.of_nat (length np) -> ren np z = z).
  { intros z Hz. unfold ren. destruct (Z.eqb_spec z (-1)); [auto|]. rewrite IA by lia. lia. }
  assert (SW : forall i, (i < length np)%nat -> sw s np i = i).
  { intros i Hi. unfold sw. destruct (Z.eqb_spec (nth i np 0) (-1)) as [E|N].
    - symmetry. apply OR. rewrite <- E. now apply nth_error_nth_in.
    - unfold np. now rewrite Z.eqb_refl. }
  (* the frame of link i relative to its parent, for any transform1s *)
  assert (FR : forall t1s y ym i, length t1s = length np -> fk_default A jt s t1s = Ok y ->
      x_moved (map (node_of np np) (seq 0 (length np))) y = Ok ym -> (i < length np)%nat ->
      t1_of A np ym i = nth i t1s (tid A)).
  { intros t1s y ym i Lt Ey Eym Hi. 
    destruct (fk_default_ok W ops A jt s np PD HN t1s Lt) as (y2 & E2 & L2 & S2).
    assert (y2 = y) by congruence. subst y2.
    destruct (nth_error (links s) i) as [l|] eqn:El.
    2:{ apply nth_error_None in El. rewrite (wf_links _ _ (pd_wf _ _ _ PD)) in El. fold np in El. lia. }
    destruct (nth_error (link_types s) i) as [ty|] eqn:Et.
    2:{ apply nth_error_None in Et. rewrite (wf_types _ _ (pd_wf _ _ _ PD)) in Et. fold np in Et. lia. }
    unfold t1_of. rewrite (XM y ym L2 Eym i Hi), (S2 i l ty El Et), (JT i ty l Et El), (tg_id_l _ glaws).
    assert (XA : xat A ym (nth i np 0) = xat A y (nth i (link_parents s) 0)).
    { fold np. unfold xat. destruct (Z.eqb_spec (nth i np 0) (-1)); auto. apply XM; auto.
      pose proof (TP i (nth i np 0) ltac:(apply nth_error_nth_in; auto)). lia. }
    rewrite XA, (tg_assoc _ glaws), (tg_inv_r _ glaws), (tg_id_r _ glaws). reflexivity. }
  assert (PO : forall bound i b, (i < length np)%nat -> new_pos A jt s (map (node_of np np) (seq 0 (length np))) bound i = Ok b ->
     forall l, nth_error (links s) i = Some l -> b = bound l).
  { intros bound i b Hi H l Hl. unfold new_pos, pos_use in H.
    assert (ND : nth_error (map (node_of np np) (seq 0 (length np))) i = Some (node_of np np i)) by (apply (nth_error_nodes s np); auto).
    rewrite (py_get_nat _ _ _ ND) in H. cbn [bind] in H.
    change (moves (node_of np np i)) with (mv s np i) in H. rewrite MV in H. cbn [bind] in H.
    rewrite (py_get_nat _ _ _ Hl), Nat2Z.id in H. cbn [bind] in H.
    apply bind_Ok in H. destruct H as (y & Ey & H). apply bind_Ok in H. destruct H as (ym & Eym & H).
    apply bind_Ok in H. destruct H as (t & Et & H). injection H as <-.
    assert (Lt : length (list_set (map l_t1 (links s)) i (set_pos A (bound l) (l_t1 l))) = length np).
    { rewrite length_list_set, map_length. apply (wf_links _ _ (pd_wf _ _ _ PD)). }
    destruct (fk_default_ok W ops A jt s np PD HN _ Lt) as (y2 & E2 & L2 & _). assert (y2 = y) by congruence. subst y2.
    destruct (x_moved_ok A s np HN AH y L2) as (ym2 & E3 & L3 & _). fold np in E3. assert (ym2 = ym) by congruence. subst ym2.
    pose proof (new_t1_ok A s np HN AH ym i L3 Hi) as E4. fold np in E4. rewrite Et in E4. injection E4 as ->.
    rewrite (FR _ y ym i Lt Ey Eym Hi), nth_list_set, Nat.eqb_refl; [apply (tg_pos _ glaws)|].
    rewrite map_length, (wf_links _ _ (pd_wf _ _ _ PD)). exact Hi. }
  assert (NV : map (new_view A s np vs v0 (t1_of A np xm) lo hi) (perm np) = vs).
  { rewrite PI. apply nth_error_ext. intros i. rewrite nth_error_map. destruct (Nat.lt_ge_cases i (length np)) as [Hi|Hi].
    - rewrite (nth_error_nth_in (seq 0 (length np)) i 0%nat) by (now rewrite seq_length). rewrite seq_nth by auto. cbn [option_map plus].
      rewrite (nth_error_nth_in vs i v0) by lia. f_equal. unfold new_view. rewrite SW by auto. cbv zeta.
      set (v := nth i vs v0). destruct V as (A1 & A2 & A3 & _).
      assert (Ev : nth_error vs i = Some v) by (apply nth_error_nth_in; lia).
      assert (El : nth_error (links s) i = Some (v_link v)) by (rewrite A3, nth_error_map, Ev; reflexivity).
      rewrite (PO l_pmin i (lo i) Hi (LO i Hi) _ El), (PO l_pmax i (hi i) Hi (HI i Hi) _ El).
      rewrite Forall_forall in FV. destruct (FV v (nth_error_In _ _ Ev)) as [F1 _].
      destruct (ll_ok _ _ llaws _ F1) as [-> ->].
      rewrite (FR (map l_t1 (links s)) x xm i); auto; [|rewrite map_length; apply (wf_links _ _ (pd_wf _ _ _ PD))].
      rewrite (nth_of_nth_error (map l_t1 (links s)) i (tid A) (l_t1 (v_link v))) by (rewrite nth_error_map, El; reflexivity).
      destruct v as [a b [? ? ? ? ?] ? ? ? ? ?]; reflexivity.
    - rewrite !(proj2 (nth_error_None _ _)); auto; [lia|now rewrite seq_length]. }
  assert (ER : raw A s np vs v0 (t1_of A np xm) lo hi x = s).
  { unfold raw. cbv zeta. rewrite NV. rewrite PI.
    destruct V as (A1 & A2 & A3 & A4 & A5 & qs & ds & _ & _ & [_ C1] & [_ C2] & [_ C3] & [_ C4]).
    rewrite <- A1, <- A2, <- A3, <- A4, C1, C2, C3, C4.
    assert (EP : map (fun i => ren np (nth i np 0)) (seq 0 (length np)) = link_parents s).
    { apply nth_error_ext. intros i. rewrite nth_error_map. destruct (Nat.lt_ge_cases i (length np)) as [Hi|Hi].
      - rewrite (nth_error_nth_in (seq 0 (length np)) i 0%nat) by (now rewrite seq_length). rewrite seq_nth by auto. cbn [option_map plus].
        fold np. rewrite (nth_error_nth_in np i 0) by auto. f_equal. apply RN.
        pose proof (TP i (nth i np 0) ltac:(apply nth_error_nth_in; auto)). lia.
      - fold np. rewrite !(proj2 (nth_error_None _ _)); auto. now rewrite seq_length. }
    assert (EG : map (fun g => (ren np (fst g), snd g)) (map (geom_of A s np x) (geoms s)) = geoms s).
    { rewrite map_map. rewrite <- (map_id (geoms s)) at 2. apply map_ext_in. intros g Hg.
      assert (F := geoms_range W ops s np PD HN). rewrite Forall_forall in F. specialize (F g Hg). cbv beta in F.
      unfold geom_of. rewrite MV, andb_false_r. rewrite RN by lia. now destruct g. }
    rewrite EP, EG. destruct s; reflexivity. }
  rewrite ER. apply parsed_parse; auto.
Qed.
End Morph.
