(** * C54: one system per combination of anchors. *)
From Coq Require Import String ZArith Lia Bool List Permutation.
From Verif Require Import Prelude M_Sys S_Sys S_Morph M_Compose M_Morph S_Morph2 P_Scan P_Sys P_Delete P_Delete2 P_Tree
  P_Dfs P_Inject M_Rand C_Lookup C_Delete C_Inject C_Morph X_Toy.
Import ListNotations.
Local Open Scope Z_scope.

(** ** Specification, by link names *)

(** The link called [n] hangs on the link called [m]. *)
Definition hangs_on {K L G O} (s : System K L G O) (n m : string) : Prop :=
  exists i j, nth_error (link_names s) i = Some n /\ nth_error (link_names s) j = Some m /\
    nth_error (link_parents s) i = Some (Z.of_nat j).

(** [n] is in the tree of the link with index [r]. *)
Definition in_tree {K L G O} (s : System K L G O) (r : nat) (n : string) : Prop :=
  exists i, nth_error (link_names s) i = Some n /\ descends (link_parents s) r i.

(** The anchors to choose from in the tree of root [r]: the requested ones that lie in it, in the given
    order, or just the root if none does. *)
Definition choices_for {K L G O} (s : System K L G O) (anchors : list string) (r : nat) (ch : list string) : Prop :=
  exists keep, (forall n, keep n = true <-> in_tree s r n) /\
    match filter keep anchors with
    | [] => exists rn, nth_error (link_names s) r = Some rn /\ ch = [rn]
    | l => ch = l
    end.

(** What is kept: every link of [s'] is a link of [s] with its shapes and its marker offset; every edge of [s']
    is an edge of [s], perhaps turned round; global settings are the same. *)
Record made_of {K L T G O} (s s' : System K L (T * G) O) : Prop := {
  mk_link : forall i' n, nth_error (link_names s') i' = Some n -> exists i, nth_error (link_names s) i = Some n /\
      map snd (attached (Z.of_nat i') (geoms s')) = map snd (attached (Z.of_nat i) (geoms s)) /\
      nth_error (omc s') i' = nth_error (omc s) i;
  mk_edges : forall n m, hangs_on s' n m -> hangs_on s n m \/ hangs_on s m n;
  mk_global : sys_dt s' = sys_dt s /\ gravity s' = gravity s /\ integration_method s' = integration_method s /\
      mass_mat_iters s' = mass_mat_iters s /\ model_name s' = model_name s }.

(** [s'] is [s] with the trees re-anchored at the links of [combo], in that order. *)
Record anchored {K L T G O} (W : widths) (ops : parse_ops K L (T * G)) (s : System K L (T * G) O)
    (combo : list string) (s' : System K L (T * G) O) : Prop := {
  an_parsed : parsed W ops s';
  an_names : Permutation (link_names s') (link_names s);
  an_roots : root_names s' = combo;
  an_made : made_of s s' }.

(** ** Products *)
Theorem C54_combinations {A} (ls : list (list A)) :
  (forall c, In c (iproduct ls) <-> Forall2 (fun x l => In x l) c ls) /\
  length (iproduct ls) = fold_right Nat.mul 1%nat (map (@length A) ls) /\
  (Forall (@NoDup A) ls -> NoDup (iproduct ls)).
Proof.
  induction ls as [|l r IH].
  - cbn. split; [|split; [reflexivity|intros; repeat constructor; auto]].
    intros c. split; [intros [<-|[]]; constructor|]. intros H. inversion H; auto.
  - destruct IH as (I1 & I2 & I3). cbn [iproduct]. split; [|split].
    + intros c. rewrite in_flat_map. split.
      * intros (x & Hx & H). apply in_map_iff in H. destruct H as (c' & <- & H). constructor; auto. now apply I1.
      * intros H. inversion H as [|x l' c' ls' Hx F]; subst. exists x. split; auto. apply in_map. now apply I1.
    + cbn [map fold_right]. rewrite <- I2. clear. induction l as [|x l IH]; cbn [flat_map length]; [reflexivity|].
      rewrite app_length, map_length, IH. reflexivity.
    + intros F. inversion F; subst. apply NoDup_flat_map; auto.
      * intros x _. apply FinFun.Injective_map_NoDup; [intros a b E; congruence|auto].
      * intros x y b _ _ N Hx Hy. apply in_map_iff in Hx, Hy. destruct Hx as (c1 & <- & _). destruct Hy as (c2 & E & _). congruence.
Qed.

(** ** Proofs *)
Section Rand.
Context {K T P J R G O : Type}.
Variable W : widths.
Notation Sys := (System K (mlink T P J R) (T * G) O).
Variable ops : parse_ops K (mlink T P J R) (T * G).
Variable A : talg T P.
Variable jt : string -> J -> T.
Hypothesis laws : ops_laws ops.
Hypothesis llaws : link_laws ops A.
Variable pad : list (mlink T P J R) -> mlink T P J R -> mlink T P J R.
Hypothesis plaws : pad_laws ops pad.
Variable ord : list string -> list string.
Hypothesis ord_perm : forall l, Permutation (ord l) l.
Implicit Types s : Sys.

Definition del s names := delete_subsystem W ops s names true.
Definition rea s a := morph_system W ops A jt s None (Some (inr a)).
Definition inj s sub := inject_system W ops pad s sub None.
Notation extract := (morph_extract del rea ord).
Notation randomize := (randomize_anchors del rea inj ord).

Lemma worlds_In s i : In i (findall_bodies_to_world s) <-> nth_error (link_parents s) i = Some (-1).
Proof.
  unfold findall_bodies_to_world. rewrite in_map_iff. split.
  - intros ((j & p) & E & H). cbn in E. subst j. apply filter_In in H. destruct H as [H1 H2].
    apply enum_In in H1. cbn [snd] in H2. apply Z.eqb_eq in H2. now subst.
  - intros H. exists (i, -1). split; auto. apply filter_In. split; [now apply enum_In|reflexivity].
Qed.
Lemma worlds_NoDup s : NoDup (findall_bodies_to_world s).
Proof. apply NoDup_map_filter. rewrite enum_fst. apply seq_NoDup. Qed.

Lemma name_at s i : wf W s -> (i < length (link_parents s))%nat -> exists n, nth_error (link_names s) i = Some n.
Proof.
  intros H B. destruct (nth_error (link_names s) i) as [n|] eqn:E; eauto.
  apply nth_error_None in E. rewrite (names_length W) in E by auto. lia.
Qed.
Lemma idx_name s i n : nth_error (link_names s) i = Some n -> idx_to_name s (Z.of_nat i) false = Ok n.
Proof.
  intros E. unfold idx_to_name. cbn [andb].
  replace (0 <=? Z.of_nat i) with true by (symmetry; apply Z.leb_le; lia). cbn [assert_ bind].
  apply py_get_nonneg; [lia|]. now rewrite Nat2Z.id.
Qed.
Lemma same_root lam a b i : topo lam -> nth_error lam a = Some (-1) -> nth_error lam b = Some (-1) ->
  descends lam a i -> descends lam b i -> a = b.
Proof.
  intros TP Ha Hb Da Db. destruct (descends_comparable lam a b i Da Db) as [D|D].
  - exact (root_minimal lam b a Hb D).
  - symmetry. exact (root_minimal lam a b Ha D).
Qed.
Lemma lt_of_name s i n : wf W s -> nth_error (link_names s) i = Some n -> (i < length (link_parents s))%nat.
Proof. intros H E. rewrite <- (names_length W) by auto. apply nth_error_Some. congruence. Qed.

(** The root that is found is the right one. *)
Lemma find_root_ok s r rn k a : wf W s -> nth_error (link_parents s) r = Some (-1) ->
  nth_error (link_names s) r = Some rn -> nth_error (link_names s) k = Some a -> descends (link_parents s) r k ->
  find_root s a = Ok (Some rn).
Proof.
  intros H Hr Hrn Hk D. unfold find_root. rewrite (name_idx W _ _ _ H Hk). cbn [bind].
  pose proof (wf_topo _ _ H) as TP.
  assert (X : forall l, (forall ip, In ip l -> In ip (enum (link_parents s))) -> In (r, -1) l ->
     first_root s k l = Ok (Some rn)).
  { induction l as [|(i, p) l IH]; intros Hl Hin; [destruct Hin|]. cbn [first_root].
    assert (Hi := Hl _ (or_introl eq_refl)). apply enum_In in Hi.
    assert (Tl : i <> r \/ p <> -1 -> first_root s k l = Ok (Some rn)).
    { intros N. apply IH; [intros; apply Hl; now right|]. destruct Hin as [E|]; auto.
      exfalso. destruct N as [N|N]; congruence. }
    destruct (p =? -1) eqn:Ep; [|apply Z.eqb_neq in Ep; auto]. apply Z.eqb_eq in Ep. subst p.
    destruct (Nat.eqb_spec k i) as [->|Nk].
    - assert (r = i) by (apply (same_root _ r i i TP Hr Hi D); constructor). subst. rewrite (idx_name _ _ _ Hrn). reflexivity.
    - destruct (C55_find_children (link_parents s) i TP) as (cs & E & _ & M). unfold below_fuel, num_links. rewrite E. cbn [bind].
      unfold mem_nat. destruct (existsb (Nat.eqb k) cs) eqn:Em.
      + apply existsb_exists in Em. destruct Em as (x & Hx & Ex). apply Nat.eqb_eq in Ex. subst x.
        apply M in Hx. assert (r = i) by (apply (same_root _ r i k TP Hr Hi D); tauto). subst.
        rewrite (idx_name _ _ _ Hrn). reflexivity.
      + apply Tl. left. intros ->. assert (In k cs) by (apply M; auto).
        assert (existsb (Nat.eqb k) cs = true) by (apply existsb_exists; exists k; split; auto; apply Nat.eqb_refl).
        congruence. }
  apply X; auto. now apply enum_In.
Qed.

(** [s'] consists of the trees of the roots [rs], re-anchored at [combo]. *)
Record part s (rs : list nat) (combo : list string) (s' : Sys) : Prop := {
  pt_parsed : parsed W ops s';
  pt_names : forall n, In n (link_names s') <-> exists r, In r rs /\ in_tree s r n;
  pt_roots : root_names s' = combo;
  pt_made : made_of s s' }.

Lemma single_root s a k : wf W s -> nth_error (link_names s) k = Some a -> nth_error (link_parents s) k = Some (-1) ->
  (forall i, nth_error (link_parents s) i = Some (-1) -> i = k) -> root_names s = [a].
Proof.
  intros H Hk Hp U.
  assert (M : forall n, In n (root_names s) <-> n = a).
  { intros n. rewrite in_root_names by apply (wf_names _ _ H). split.
    - intros (j & J1 & J2). apply U in J1. subst. congruence.
    - intros ->. eauto. }
  assert (ND : NoDup (root_names s)).
  { unfold root_names. pose proof (wf_unique _ _ H) as Un. pose proof (wf_names _ _ H) as Ln. clear -Un Ln.
    revert Un Ln. generalize (link_names s) as ns. generalize (link_parents s) as ps.
    induction ps as [|p ps IH]; intros [|m ns] Un Hl; simpl in *; try discriminate; try constructor.
    inversion Un; subst. destruct (p =? -1); simpl; auto. constructor; auto.
    intros X. apply in_map_iff in X. destruct X as ([q m'] & X1 & X2). simpl in X1. subst.
    apply filter_In in X2. destruct X2 as [X2 _]. apply in_combine_r in X2. auto. }
  destruct (root_names s) as [|x [|y l]] eqn:E.
  - exfalso. apply (M a). reflexivity.
  - f_equal. apply M. now left.
  - exfalso. assert (x = a) by (apply M; now left). assert (y = a) by (apply M; right; now left). subst.
    inversion ND; subst. apply H2. now left.
Qed.

Lemma morphed_name s np perm s' : wf W s -> morphed W s np perm s' -> forall m i, nth_error perm m = Some i ->
  nth_error (link_names s') m = nth_error (link_names s) i /\ nth_error (omc s') m = nth_error (omc s) i.
Proof.
  intros H M m i Hm. destruct (mo_views _ _ _ _ _ M) as (vs & vs' & (A1 & _ & _ & A2 & AL & _) & (B1 & _ & _ & B2 & _) & V).
  assert (Hi : (i < length vs)%nat).
  { rewrite <- AL. assert (In i perm) by (eapply nth_error_In; eauto).
    apply (Permutation_in _ (mo_perm _ _ _ _ _ M)) in H0. apply in_seq in H0. unfold num_links in H0. lia. }
  destruct (nth_error vs i) as [v|] eqn:E; [|apply nth_error_None in E; lia].
  destruct (V m i v Hm E) as (j & w & v' & _ & _ & E' & N1 & N2 & _).
  rewrite A1, B1, A2, B2. rewrite (map_nth_error _ _ _ E'), (map_nth_error _ _ _ E), (map_nth_error _ _ _ E'), (map_nth_error _ _ _ E), N1, N2. auto.
Qed.

Lemma extract_ok s r k a : parsed W ops s -> nth_error (link_parents s) r = Some (-1) ->
  nth_error (link_names s) k = Some a -> descends (link_parents s) r k ->
  exists s', extract s a = Ok s' /\ part s [r] [a] s'.
Proof.
  intros PD Hr Hk D. pose proof (pd_wf _ _ _ PD) as WF. pose proof (wf_topo _ _ WF) as TP.
  assert (Lr : (r < length (link_parents s))%nat) by (apply nth_error_Some; congruence).
  destruct (name_at s r WF Lr) as (rn & Hrn).
  unfold morph_extract. rewrite (find_root_ok s r rn k a WF Hr Hrn Hk D). cbn [bind].
  destruct (names_of W s (findall_bodies_to_world s) WF) as (roots & E1 & E2).
  { intros i Hi. apply worlds_In in Hi. apply nth_error_Some. congruence. }
  rewrite E1. cbn [bind].
  set (others := filter (fun n => negb (String.eqb n rn)) roots).
  assert (OI : forall n, In n (ord others) <-> exists i, nth_error (link_parents s) i = Some (-1) /\
     nth_error (link_names s) i = Some n /\ i <> r).
  { intros n. split.
    - intros Hn. apply (Permutation_in _ (ord_perm others)) in Hn. apply filter_In in Hn. destruct Hn as [H1 H2].
      destruct (F2_In_r _ _ _ _ E2 H1) as (i & I1 & I2). apply worlds_In in I1. exists i. split; auto. split; auto.
      intros ->. assert (n = rn) by congruence. subst. rewrite String.eqb_refl in H2. discriminate.
    - intros (i & I1 & I2 & I3). apply (Permutation_in _ (Permutation_sym (ord_perm others))). apply filter_In.
      split.
      + apply worlds_In in I1. destruct (F2_In_l _ _ _ _ E2 I1) as (b & B1 & B2). congruence.
      + apply negb_true_iff. apply String.eqb_neq. intros ->. apply I3.
        eapply NoDup_nth_error_inj; [apply (wf_unique _ _ WF)|eauto|eauto]. }
  assert (ON : NoDup (ord others)).
  { apply (Permutation_NoDup (Permutation_sym (ord_perm others))). apply NoDup_filter.
    eapply (F2_NoDup W s); eauto. apply worlds_NoDup. }
  assert (SV : forall i, survives s (ord others) i <-> descends (link_parents s) r i).
  { intros i. unfold survives, num_links. split.
    - intros [Hi HN]. destruct (root_above _ TP i Hi) as (r2 & R2 & D2).
      destruct (Nat.eq_dec r2 r) as [->|N]; auto. exfalso.
      assert (L2 : (r2 < length (link_parents s))%nat) by (apply nth_error_Some; congruence).
      destruct (name_at s r2 WF L2) as (n2 & N2). apply (HN r2 n2); auto. apply OI. eauto.
    - intros Di. split; [eapply desc_lt_length; eauto|]. intros j nm Hn Hj Dj.
      apply OI in Hn. destruct Hn as (i2 & I1 & I2 & I3).
      assert (i2 = j) by (eapply NoDup_nth_error_inj; [apply (wf_unique _ _ WF)|eauto|eauto]). subst i2.
      apply I3. exact (same_root _ j r i TP I1 Hr Dj Di). }
  destruct (C03_delete_total W ops laws s (ord others) PD) as [_ DT].
  { exists k. now apply SV. }
  destruct DT as (s1 & Ed).
  { intros nm Hn. apply OI in Hn. destruct Hn as (i & _ & I2 & _). eapply nth_error_In; eauto. }
  { intros x y na nb ka kb Lxy Hx Hy Ha Hb Dab.
    assert (Ia : In na (ord others)) by (eapply nth_error_In; eauto).
    assert (Ib : In nb (ord others)) by (eapply nth_error_In; eauto).
    apply OI in Ia, Ib. destruct Ia as (ia & A1 & A2 & _), Ib as (ib & B1 & B2 & _).
    assert (ia = ka) by (eapply NoDup_nth_error_inj; [apply (wf_unique _ _ WF)|eauto|eauto]).
    assert (ib = kb) by (eapply NoDup_nth_error_inj; [apply (wf_unique _ _ WF)|eauto|eauto]). subst ia ib.
    assert (ka = kb) by exact (root_minimal _ kb ka B1 Dab). subst kb.
    assert (na = nb) by congruence. subst nb.
    assert (x = y) by (eapply NoDup_nth_error_inj; eauto). lia. }
  unfold del. rewrite Ed. cbn [bind].
  destruct (C04_delete_preserves_partial W ops laws s s1 _ true PD Ed) as (keep & KS & RS & PD1).
  assert (KD : forall i, In i keep <-> descends (link_parents s) r i) by (intros; rewrite KS; apply SV).
  pose proof (restricts_names W _ _ _ RS) as PK.
  pose proof (restricts_num_links W _ _ _ RS) as NL.
  assert (POS : forall i, descends (link_parents s) r i -> exists i', nth_error keep i' = Some i).
  { intros i Di. apply KD in Di. now apply In_nth_error in Di. }
  destruct (POS r (desc_refl _ r)) as (r' & Hr'). destruct (POS k D) as (k' & Hk').
  assert (CN : connected (link_parents s1)).
  { exists r'. intros i' Hi'. destruct (nth_error keep i') as [i|] eqn:E.
    - apply (descends_restricts W s s1 keep r' i' r i RS Hr' E). apply KD. eapply nth_error_In; eauto.
    - apply nth_error_None in E. unfold num_links in NL. lia. }
  assert (Lk' : (k' < num_links s1)%nat) by (rewrite NL; apply nth_error_Some; congruence).
  assert (Nk' : nth_error (link_names s1) k' = Some a).
  { destruct (Forall2_nth_l _ _ _ _ _ PK Hk') as (n & N1 & N2). congruence. }
  pose proof (pd_wf _ _ _ PD1) as WF1. pose proof (wf_topo _ _ WF1) as TP1.
  destruct (C10_new_anchor W ops A jt laws llaws s1 k' PD1 Lk' CN) as (np & s2 & perm & (RL & RA & RE) & EM & PD2 & MO).
  exists s2. split.
  { unfold rea. revert EM. unfold morph_system. rewrite (name_idx W _ _ _ WF1 Nk'). auto. }
  pose proof (pd_wf _ _ _ PD2) as WF2.
  pose proof (mo_perm _ _ _ _ _ MO) as PM.
  assert (PL : length perm = num_links s1) by (rewrite (Permutation_length PM); apply seq_length).
  assert (P2 : length (link_parents s2) = num_links s1)
    by (rewrite <- PL; symmetry; apply (Forall2_length _ _ _ (mo_parents _ _ _ _ _ MO))).
  assert (PN : NoDup perm) by (apply (Permutation_NoDup (Permutation_sym PM)), seq_NoDup).
  (* position in s2 -> position in s *)
  assert (BACK : forall m, (m < length (link_parents s2))%nat -> exists i1 i, nth_error perm m = Some i1 /\ nth_error keep i1 = Some i /\
     (i1 < num_links s1)%nat).
  { intros m Hm. destruct (nth_error perm m) as [i1|] eqn:E; [|apply nth_error_None in E; lia].
    assert (I1 : (i1 < num_links s1)%nat).
    { assert (X : In i1 perm) by (eapply nth_error_In; eauto). apply (Permutation_in _ PM) in X. apply in_seq in X. lia. }
    destruct (nth_error keep i1) as [i|] eqn:E'; [|apply nth_error_None in E'; lia]. eauto. }
  assert (NM : forall m i1 i, nth_error perm m = Some i1 -> nth_error keep i1 = Some i ->
     nth_error (link_names s2) m = nth_error (link_names s) i).
  { intros m i1 i H1 H2. rewrite (proj1 (morphed_name _ _ _ _ WF1 MO m i1 H1)).
    destruct (Forall2_nth_l _ _ _ _ _ PK H2) as (n & N1 & N2). congruence. }
  split.
  - exact PD2.
  - intros n. split.
    + intros Hn. apply In_nth_error in Hn. destruct Hn as (m & Hm). pose proof (lt_of_name _ _ _ WF2 Hm) as Lm.
      destruct (BACK m Lm) as (i1 & i & B1 & B2 & _). exists r. split; [now left|]. exists i.
      rewrite (NM _ _ _ B1 B2) in Hm. split; auto. apply KD. eapply nth_error_In; eauto.
    + intros (r0 & [<-|[]] & i & Hi & Di). destruct (POS i Di) as (i1 & Hi1).
      assert (L1 : (i1 < num_links s1)%nat) by (rewrite NL; apply nth_error_Some; congruence).
      assert (X : In i1 perm) by (apply (Permutation_in _ (Permutation_sym PM)); apply in_seq; lia).
      apply In_nth_error in X. destruct X as (m & Hm). apply (nth_error_In _ m). rewrite (NM _ _ _ Hm Hi1). auto.
  - assert (X : In k' perm) by (apply (Permutation_in _ (Permutation_sym PM)); apply in_seq; lia).
    apply In_nth_error in X. destruct X as (m & Hm).
    apply (single_root s2 a m WF2).
    + rewrite (NM _ _ _ Hm Hk'). auto.
    + destruct (Forall2_nth_l _ _ _ _ _ (mo_parents _ _ _ _ _ MO) Hm) as (p' & Hp' & p & Hp & [[_ ->]|(m' & i' & -> & _ & _)]); auto.
      rewrite RA in Hp. assert (-1 = Z.of_nat i') by congruence. lia.
    + intros m' Hm'. assert (Lm' : (m' < length (link_parents s2))%nat) by (apply nth_error_Some; congruence).
      destruct (BACK m' Lm') as (i1 & i & B1 & B2 & B3).
      destruct (Forall2_nth _ _ _ _ _ _ (mo_parents _ _ _ _ _ MO) B1 Hm') as (p & Hp & [[-> _]|(x & y & _ & X & _)]); [|lia].
      assert (i1 = k').
      { destruct (Nat.eq_dec i1 k') as [|N]; auto. exfalso. unfold num_links in B3. destruct (RE i1 B3 N) as [RE1 RE2].
        destruct (descends_dec _ TP1 i1 k') as [Dx|Dx].
        - destruct (RE1 Dx) as (c & _ & _ & C3). rewrite Hp in C3. assert (-1 = Z.of_nat c) by congruence. lia.
        - rewrite RE2 in Hp by auto. apply Dx. destruct CN as (r0 & CN).
          assert (i1 = r0) by (symmetry; apply (root_minimal _ i1 r0 Hp); auto). subst. apply CN. unfold num_links in Lk'. lia. }
      subst i1. eapply NoDup_nth_error_inj; eauto.
  - split.
    + intros m n Hm. pose proof (lt_of_name _ _ _ WF2 Hm) as Lm. destruct (BACK m Lm) as (i1 & i & B1 & B2 & B3).
      exists i. split; [rewrite <- (NM _ _ _ B1 B2); auto|]. split.
      * rewrite (mo_geoms _ _ _ _ _ MO m i1 B1). rewrite (rs_geoms _ _ _ _ RS i1 i B2). reflexivity.
      * rewrite (proj2 (morphed_name _ _ _ _ WF1 MO m i1 B1)).
        destruct (rs_views _ _ _ _ RS) as (vs & vs' & (_ & _ & _ & V1 & _) & (_ & _ & _ & V2 & _) & PV).
        destruct (Forall2_nth_l _ _ _ _ _ PV B2) as (v & X1 & X2). rewrite V1, V2.
        rewrite (map_nth_error _ _ _ X1), (map_nth_error _ _ _ X2). reflexivity.
    + intros n m (i & j & Hi & Hj & Hp).
      pose proof (lt_of_name _ _ _ WF2 Hi) as Li. destruct (BACK i Li) as (i1 & i0 & I1 & I2 & I3).
      pose proof (lt_of_name _ _ _ WF2 Hj) as Lj. destruct (BACK j Lj) as (j1 & j0 & J1 & J2 & J3).
      rewrite (NM _ _ _ I1 I2) in Hi. rewrite (NM _ _ _ J1 J2) in Hj.
      destruct (Forall2_nth _ _ _ _ _ _ (mo_parents _ _ _ _ _ MO) I1 Hp) as (p & Hnp & [[_ X]|(x & y & -> & X & Hx)]); [lia|].
      apply Nat2Z.inj in X. subst x. assert (y = j1) by congruence. subst y.
      assert (EDGE : forall u u0 v v0, nth_error keep u = Some u0 -> nth_error keep v = Some v0 ->
         nth_error (link_parents s1) u = Some (Z.of_nat v) -> nth_error (link_parents s) u0 = Some (Z.of_nat v0)).
      { intros u u0 v v0 Hu Hv Hpp.
        destruct (Forall2_nth _ _ _ _ _ _ (rs_parents _ _ _ _ RS) Hu Hpp) as (q & Hq & [[_ Y]|(m0 & i9 & -> & Y & Hm0)]); [lia|].
        apply Nat2Z.inj in Y. subst m0. congruence. }
      assert (N : i1 <> k') by (intros ->; assert (-1 = Z.of_nat j1) by congruence; lia).
      unfold num_links in I3. destruct (RE i1 I3 N) as [RE1 RE2].
      destruct (descends_dec _ TP1 i1 k') as [Dx|Dx].
      * destruct (RE1 Dx) as (c & C1 & _ & C3). assert (c = j1) by (apply Nat2Z.inj; congruence). subst c.
        right. exists j0, i0. split; auto. split; auto. exact (EDGE _ _ _ _ J2 I2 C1).
      * left. exists i0, j0. split; auto. split; auto. apply (EDGE i1 i0 j1 j0); auto. rewrite <- RE2; auto.
    + destruct (mo_global _ _ _ _ _ MO) as (? & ? & ? & ? & ?). destruct (rs_global _ _ _ _ RS) as (? & ? & ? & ? & ?).
      repeat split; congruence.
Qed.

Lemma inject_ok s rs combo acc r a sub : parsed W ops s -> part s rs combo acc -> part s [r] [a] sub ->
  (forall x, In x (r :: rs) -> nth_error (link_parents s) x = Some (-1)) -> ~ In r rs ->
  exists s', inj acc sub = Ok s' /\ part s (rs ++ [r]) (combo ++ [a]) s'.
Proof.
  intros PD PA PB RT NI. pose proof (pd_wf _ _ _ PD) as WF. pose proof (wf_topo _ _ WF) as TP.
  destruct (C05_inject W ops laws pad plaws acc sub None (-1) (pt_parsed _ _ _ _ PA) (pt_parsed _ _ _ _ PB) eq_refl)
    as (s' & E & PD' & IJ & NM).
  { intros n H1 H2. apply (pt_names _ _ _ _ PA) in H1. apply (pt_names _ _ _ _ PB) in H2.
    destruct H1 as (x & X1 & i & X2 & X3), H2 as (y & [<-|[]] & j & Y2 & Y3).
    assert (i = j) by (eapply NoDup_nth_error_inj; [apply (wf_unique _ _ WF)|eauto|eauto]). subst j.
    apply NI. assert (x = r) by (apply (same_root _ x r i TP); auto; apply RT; [now right|now left]). now subst. }
  exists s'. split; [exact E|].
  pose proof (pd_wf _ _ _ (pt_parsed _ _ _ _ PA)) as WA. pose proof (pd_wf _ _ _ (pt_parsed _ _ _ _ PB)) as WB.
  pose proof (names_length W _ WA) as LA. pose proof (names_length W _ WB) as LB.
  pose proof (wf_omc _ _ WA) as OA.
  assert (OM : omc s' = omc acc ++ omc sub).
  { destruct (ij_views _ _ _ _ _ _ _ IJ) as (vs & vsub & vs' & (_ & _ & _ & A1 & _) & (_ & _ & _ & B1 & _) & (_ & _ & _ & C1 & _) & Len & H1 & H2).
    rewrite A1, B1, C1. apply nth_error_ext. intros i. rewrite nth_error_map.
    destruct (Nat.lt_ge_cases i (length vs)) as [Hi|Hi].
    - rewrite nth_error_app1 by (now rewrite map_length). rewrite nth_error_map.
      destruct (nth_error vs i) as [v|] eqn:Ev; [|apply nth_error_None in Ev; lia].
      destruct (H1 _ _ Ev) as (v' & -> & (_ & _ & N & _) & _). cbn [option_map]. now rewrite N.
    - rewrite nth_error_app2 by (now rewrite map_length). rewrite map_length, nth_error_map.
      destruct (nth_error vsub (i - length vs)) as [v|] eqn:Ev.
      + destruct (H2 _ _ Ev) as (v' & X & (_ & _ & N & _) & _). replace (length vs + (i - length vs))%nat with i in X by lia.
        rewrite X. cbn [option_map]. now rewrite N.
      + apply nth_error_None in Ev. assert (X : nth_error vs' i = None) by (apply nth_error_None; lia). rewrite X. reflexivity. }
  pose proof (ij_parents _ _ _ _ _ _ _ IJ) as IP.
  split.
  - exact PD'.
  - intros n. rewrite NM, in_app_iff, (pt_names _ _ _ _ PA), (pt_names _ _ _ _ PB). split.
    + intros [(x & X1 & X2)|(x & X1 & X2)]; exists x; (split; [apply in_app_iff|]); auto.
    + intros (x & X1 & X2). apply in_app_iff in X1. destruct X1 as [X1|X1]; [left|right]; eauto.
  - rewrite <- (pt_roots _ _ _ _ PA), <- (pt_roots _ _ _ _ PB). unfold root_names. rewrite IP, NM.
    assert (CA : forall {X Y} (a1 a2 : list X) (b1 b2 : list Y), length a1 = length b1 ->
       combine (a1 ++ a2) (b1 ++ b2) = combine a1 b1 ++ combine a2 b2).
    { clear. intros X Y a1. induction a1 as [|x a1 IH]; intros a2 [|y b1] b2 H; cbn in *; try discriminate; auto.
      rewrite IH by congruence. reflexivity. }
    rewrite CA by auto. rewrite filter_app, map_app. f_equal.
    pose proof (wf_topo _ _ WB) as TB.
    assert (PB1 : Forall (fun p => -1 <= p) (link_parents sub)).
    { apply Forall_forall. intros p Hp. apply In_nth_error in Hp. destruct Hp as (i & Hi). pose proof (TB _ _ Hi). lia. }
    clear - PB1. revert PB1. generalize (link_names sub). generalize (length (link_parents acc)).
    induction (link_parents sub) as [|p ps IH]; intros n l H; [reflexivity|]. inversion H; subst.
    destruct l as [|x l]; [reflexivity|]. cbn [map combine filter fst].
    destruct (Z.eq_dec p (-1)) as [->|N].
    + cbn. f_equal. apply IH; auto.
    + replace (p + Z.of_nat n =? -1) with false by (symmetry; apply Z.eqb_neq; lia).
      replace (p =? -1) with false by (symmetry; now apply Z.eqb_neq). apply IH; auto.
  - destruct (pt_made _ _ _ _ PA) as [MA1 MA2 MA3]. destruct (pt_made _ _ _ _ PB) as [MB1 MB2 MB3]. split.
    + intros i' n Hi'. rewrite NM in Hi'. destruct (Nat.lt_ge_cases i' (length (link_names acc))) as [Hl|Hl].
      * rewrite nth_error_app1 in Hi' by auto. destruct (MA1 _ _ Hi') as (i & I1 & I2 & I3). exists i. split; auto. split.
        -- rewrite (ij_geoms_host _ _ _ _ _ _ _ IJ) by lia. destruct (Z.eq_dec (Z.of_nat i') (-1)); [lia|].
           rewrite app_nil_r. auto.
        -- rewrite OM, nth_error_app1 by lia. auto.
      * rewrite nth_error_app2 in Hi' by auto. destruct (MB1 _ _ Hi') as (i & I1 & I2 & I3). exists i. split; auto. split.
        -- rewrite <- I2. f_equal.
           rewrite <- (ij_geoms_sub _ _ _ _ _ _ _ IJ (Z.of_nat (i' - length (link_names acc)))) by lia. f_equal. lia.
        -- rewrite OM, nth_error_app2 by lia. rewrite <- I3. f_equal. lia.
    + intros n m (i & j & Hi & Hj & Hp). rewrite NM in Hi, Hj. rewrite IP in Hp.
      destruct (Nat.lt_ge_cases i (length (link_names acc))) as [Hl|Hl].
      * rewrite nth_error_app1 in Hi by auto. rewrite nth_error_app1 in Hp by lia.
        pose proof (wf_topo _ _ WA _ _ Hp). rewrite nth_error_app1 in Hj by lia.
        apply MA2. exists i, j. auto.
      * rewrite nth_error_app2 in Hi by auto. rewrite nth_error_app2 in Hp by lia. rewrite <- LA, nth_error_map in Hp.
        destruct (nth_error (link_parents sub) (i - length (link_names acc))) as [p|] eqn:Ep; [|discriminate].
        cbn [option_map] in Hp. pose proof (wf_topo _ _ WB _ _ Ep).
        destruct (Z.eq_dec p (-1)) as [->|Np]; [assert (-1 = Z.of_nat j) by congruence; lia|].
        assert (Ej : p + Z.of_nat (length (link_names acc)) = Z.of_nat j) by congruence.
        rewrite nth_error_app2 in Hj by lia. apply MB2.
        exists (i - length (link_names acc))%nat, (j - length (link_names acc))%nat. split; auto. split; auto.
        rewrite Ep. f_equal. lia.
    + destruct (ij_global _ _ _ _ _ _ _ IJ) as (? & ? & ? & ? & ?). destruct MA3 as (? & ? & ? & ? & ?).
      repeat split; congruence.
Qed.

Lemma combine_ok s rs combo : parsed W ops s -> NoDup rs ->
  (forall x, In x rs -> nth_error (link_parents s) x = Some (-1)) -> rs <> [] ->
  Forall2 (in_tree s) rs combo -> exists s', combine_anchors del rea inj ord s combo = Ok s' /\ part s rs combo s'.
Proof.
  intros PD ND RT NE F. destruct F as [|r a rs combo (k & Hk & Dk) F]; [congruence|]. cbn [combine_anchors].
  destruct (extract_ok s r k a PD (RT r (or_introl eq_refl)) Hk Dk) as (s0 & E0 & P0). rewrite E0. cbn [bind].
  assert (X : forall done dc acc, part s done dc acc -> NoDup (done ++ rs) ->
     (forall x, In x (done ++ rs) -> nth_error (link_parents s) x = Some (-1)) ->
     exists s', foldM (fun acc b => do sub <- extract s b; inj acc sub) acc combo = Ok s' /\ part s (done ++ rs) (dc ++ combo) s').
  { clear P0 E0 s0 ND RT NE Hk Dk. induction F as [|r' a' rs combo (k' & Hk' & Dk') F IH]; intros done dc acc PA ND RT.
    - rewrite !app_nil_r. exists acc. split; [reflexivity|auto].
    - cbn [foldM]. assert (Hr' : nth_error (link_parents s) r' = Some (-1)) by (apply RT, in_app_iff; right; now left).
      destruct (extract_ok s r' k' a' PD Hr' Hk' Dk') as (sub & E1 & P1). rewrite E1. cbn [bind].
      destruct (inject_ok s done dc acc r' a' sub PD PA P1) as (acc' & E2 & P2).
      { intros x [<-|Hx]; auto. apply RT, in_app_iff. now left. }
      { apply NoDup_remove_2 in ND. intros Hin. apply ND, in_app_iff. now left. }
      rewrite E2. cbn [bind].
      destruct (IH (done ++ [r']) (dc ++ [a']) acc' P2) as (s' & E3 & P3).
      + now rewrite <- app_assoc.
      + intros x Hx. apply RT. rewrite <- app_assoc in Hx. auto.
      + rewrite <- !app_assoc in P3. cbn [app] in P3. eauto. }
  destruct (X [r] [a] s0 P0) as (s' & E & P1); cbn [app]; auto. exists s'. split; auto.
Qed.

Lemma assign_ok s anchors : parsed W ops s ->
  exists choices, assign_anchors s anchors = Ok choices /\
    Forall2 (choices_for s anchors) (findall_bodies_to_world s) choices.
Proof.
  intros PD. pose proof (pd_wf _ _ _ PD) as WF. pose proof (wf_topo _ _ WF) as TP. unfold assign_anchors.
  assert (X : forall l, (forall i, In i l -> nth_error (link_parents s) i = Some (-1)) ->
    exists choices, mapM (anchors_of_root s anchors) l = Ok choices /\ Forall2 (choices_for s anchors) l choices).
  { induction l as [|r l IH]; intros Hl; cbn [mapM].
    - exists []. split; [reflexivity|constructor].
    - destruct IH as (chs & E1 & E2); [intros; apply Hl; now right|].
      assert (Hr := Hl r (or_introl eq_refl)).
      assert (Lr : (r < length (link_parents s))%nat) by (apply nth_error_Some; congruence).
      destruct (name_at s r WF Lr) as (rn & Hrn).
      destruct (C55_find_children (link_parents s) r TP) as (cs & Ec & _ & Mc).
      assert (MI : forall i, In i (r :: cs) <-> descends (link_parents s) r i).
      { intros i. cbn [In]. rewrite Mc. destruct (Nat.eq_dec r i) as [->|N].
        - split; [intros; constructor|auto].
        - split; [intros [|[]]; [congruence|auto]|auto]. }
      destruct (names_of W s (r :: cs) WF) as (ns & En & Fn).
      { intros i Hi. apply MI in Hi. eapply desc_lt_length; eauto. }
      set (keep := fun nm => memS nm ns).
      assert (KP : forall n, keep n = true <-> in_tree s r n).
      { intros n. unfold keep. rewrite memS_In. split.
        - intros Hn. destruct (F2_In_r _ _ _ _ Fn Hn) as (i & I1 & I2). exists i. split; auto. now apply MI.
        - intros (i & I1 & I2). apply MI in I2. destruct (F2_In_l _ _ _ _ Fn I2) as (b & B1 & B2). congruence. }
      assert (Y : exists ch, anchors_of_root s anchors r = Ok ch /\ choices_for s anchors r ch).
      { unfold anchors_of_root. unfold below_fuel, num_links. rewrite Ec. cbn [bind]. rewrite En. cbn [bind].
        change (fun nm => memS nm ns) with keep. destruct (filter keep anchors) as [|x f] eqn:Ef.
        - exists [rn]. rewrite (idx_name _ _ _ Hrn). split; [reflexivity|]. exists keep. split; auto. rewrite Ef. eauto.
        - exists (x :: f). split; [reflexivity|]. exists keep. split; auto. rewrite Ef. auto. }
      destruct Y as (ch & Y1 & Y2). exists (ch :: chs). rewrite Y1. cbn [bind]. rewrite E1. split; [reflexivity|].
      constructor; auto. }
  apply X. intros i. apply worlds_In.
Qed.

Lemma choice_lies s anchors r ch a : choices_for s anchors r ch -> In a ch -> in_tree s r a.
Proof.
  intros (keep & KP & H) Ha. destruct (filter keep anchors) as [|x f] eqn:Ef.
  - destruct H as (rn & Hrn & ->). destruct Ha as [<-|[]]. exists r. split; auto. constructor.
  - subst ch. rewrite <- Ef in Ha. apply filter_In in Ha. apply KP. tauto.
Qed.

(** C54.  For every system with at least one link and every list of anchors (by default all links that
    are not IMUs), the call succeeds; it returns, in the order of itertools.product, one system per
    combination of one anchor per tree; each has all links of the input (with their shapes), the chosen
    anchors as its roots, and no edge that was not there before. *)
Theorem C54_randomize_anchors s anchors : parsed W ops s -> num_links s <> 0%nat ->
  exists choices syss, randomize s anchors = Ok syss /\
    Forall2 (choices_for s (match anchors with Some l => l | None => findall_segments s end))
            (findall_bodies_to_world s) choices /\
    Forall2 (anchored W ops s) (iproduct choices) syss.
Proof.
  intros PD NE. pose proof (pd_wf _ _ _ PD) as WF. pose proof (wf_topo _ _ WF) as TP.
  unfold randomize_anchors. set (an := match anchors with Some l => l | None => findall_segments s end).
  destruct (assign_ok s an PD) as (choices & E1 & F1). rewrite E1. cbn [bind].
  set (rs := findall_bodies_to_world s) in *.
  assert (NR : rs <> []).
  { destruct (root_above _ TP 0) as (r & Hr & _); [unfold num_links in NE; lia|].
    apply worlds_In in Hr. fold rs in Hr. intros E0. rewrite E0 in Hr. destruct Hr. }
  assert (ALL : forall l, (forall c, In c l -> Forall2 (in_tree s) rs c) ->
    exists syss, mapM (combine_anchors del rea inj ord s) l = Ok syss /\ Forall2 (anchored W ops s) l syss).
  { induction l as [|c l IH]; intros Hl; cbn [mapM].
    - exists []. split; [reflexivity|constructor].
    - destruct IH as (syss & E2 & F2); [intros; apply Hl; now right|].
      destruct (combine_ok s rs c PD (worlds_NoDup s) (fun x Hx => proj1 (worlds_In s x) Hx) NR (Hl c (or_introl eq_refl)))
        as (s' & E3 & PT).
      exists (s' :: syss). rewrite E3. cbn [bind]. rewrite E2. split; [reflexivity|]. constructor; auto.
      destruct PT as [Q1 Q2 Q3 Q4]. split; auto.
      apply NoDup_Permutation; [apply (wf_unique _ _ (pd_wf _ _ _ Q1))|apply (wf_unique _ _ WF)|].
      intros n. rewrite Q2. split.
      + intros (r & _ & i & Hi & _). eapply nth_error_In; eauto.
      + intros Hn. apply In_nth_error in Hn. destruct Hn as (i & Hi).
        destruct (root_above _ TP i (lt_of_name _ _ _ WF Hi)) as (r & Hr & D). exists r.
        split; [now apply worlds_In|]. exists i. auto. }
  destruct (ALL (iproduct choices)) as (syss & E2 & F2).
  { intros c Hc. apply C54_combinations in Hc. clear ALL NR E1. revert c Hc.
    induction F1 as [|r ch rs chs H1 F1 IH]; intros c Hc; inversion Hc; subst; constructor; auto.
    eapply choice_lies; eauto. }
  exists choices, syss. auto.
Qed.
End Rand.

(** Hypotheses met: two trees, three anchors in the first, none requested in the second. *)
Definition line_two : line_system :=
  mkSys [-1; 0; 1; -1; 3] [lk 1 0 2 0; lk 10 9 12 0; lk 5 5 5 0; lk 7 7 7 0; lk (-3) (-4) (-2) 0]
    ["free"; "ry"; "rx"; "free"; "px"]%string
    (seq 0 15) (seq 20 15) (seq 40 15) ([1; 0; 0; 0; 5; 6; 7; 8; 9; 1; 0; 0; 0; 1; 2; 3; 4]%nat) 1%nat
    [] [0; 0; 9]%nat "semi_implicit_euler" 0
    ["root"; "a"; "b"; "root2"; "c"]%string (Some "two"%string) [tt; tt; tt; tt; tt].
Lemma line_two_parsed : parsed builtin_widths line_ops line_two.
Proof. parsed_by_compute line_laws. Qed.
Example C54_example :
  num_links line_two = 5%nat /\
  match randomize_anchors (del builtin_widths line_ops) (rea builtin_widths line_ops line zero_joint)
          (inj builtin_widths line_ops (fun _ l => l)) (@rev string) line_two (Some ["b"; "a"; "nowhere"]%string) with
  | Ok syss => map (@link_names _ _ _ _) syss = [["b"; "a"; "root"; "root2"; "c"]; ["a"; "root"; "b"; "root2"; "c"]]%string
  | Err _ => False
  end.
Proof. split; vm_compute; reflexivity. Qed.
Lemma line_pad_laws : pad_laws line_ops (fun _ l => l).
Proof. constructor; auto. Qed.
Print Assumptions C54_randomize_anchors.
