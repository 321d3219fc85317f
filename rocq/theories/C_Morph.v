(** * C09-C12: morphing *)
From Coq Require Import String ZArith Lia Bool List Permutation.
From Verif Require Import Prelude M_Sys S_Sys S_Morph M_Compose M_Morph S_Morph2 P_Scan P_Sys P_Delete P_Tree P_Reroot P_Dfs P_Morph P_Morph2 P_Morph3 X_Toy.
Import ListNotations.
Local Open Scope Z_scope.

(** C09.  Re-anchoring a tree with one root at link [a] gives the re-rooted parent array; a forest with
    several roots is rejected with a KeyError. *)
Theorem C09_new_anchor_reroots lam a : topo lam -> (a < length lam)%nat ->
  (connected lam -> exists np, autodetermine_new_parents lam a = Ok np /\ rerooted lam a np) /\
  (~ connected lam -> autodetermine_new_parents lam a = Err EKey).
Proof. exact (autodetermine_spec lam a). Qed.

(** The specification determines the parent array. *)
Theorem C09_rerooted_unique lam a np1 np2 : topo lam -> (a < length lam)%nat ->
  rerooted lam a np1 -> rerooted lam a np2 -> np1 = np2.
Proof.
  intros T Ha (L1 & R1 & H1) (L2 & R2 & H2). apply nth_error_ext. intros i.
  destruct (Nat.lt_ge_cases i (length lam)) as [Hi|Hi].
  - destruct (Nat.eq_dec i a) as [->|Ni]; [congruence|].
    destruct (H1 i Hi Ni) as [A1 B1], (H2 i Hi Ni) as [A2 B2].
    destruct (descends_dec lam T i a) as [D|D].
    + destruct (A1 D) as (c1 & X1 & Y1 & ->). destruct (A2 D) as (c2 & X2 & Y2 & ->).
      now rewrite (siblings_disjoint lam T i c1 c2 a X1 X2 Y1 Y2).
    + rewrite (B1 D), (B2 D). reflexivity.
  - rewrite !(proj2 (nth_error_None _ _)) by lia. reflexivity.
Qed.

Example C09_example :
  connected [-1; 0; 1; 1; 0; 4] /\
  autodetermine_new_parents [-1; 0; 1; 1; 0; 4] 3 = Ok [1; 3; 1; -1; 0; 4] /\
  autodetermine_new_parents [-1; 0; -1] 1 = Err EKey.
Proof.
  split; [|split; reflexivity]. exists 0%nat. intros i Hi.
  set (L := [-1; 0; 1; 1; 0; 4]) in *.
  pose proof (desc_refl L 0) as D0. pose proof (desc_step L 0 1 0 eq_refl D0) as D1.
  pose proof (desc_step L 0 4 0 eq_refl D0) as D4.
  destruct i as [|[|[|[|[|[|i]]]]]]; simpl in Hi; try lia; auto.
  - exact (desc_step L 0 2 1 eq_refl D1).
  - exact (desc_step L 0 3 1 eq_refl D1).
  - exact (desc_step L 0 5 4 eq_refl D4).
Qed.


(** ** A concrete instance: links on a line, transforms are translations along it. *)
Definition line : talg Z Z := mkTalg Z Z Z.add Z.opp 0 (fun t => t) (fun p _ => p) Z.min Z.max.
Notation line_link := (mlink Z Z unit nat).
Definition line_ops : parse_ops nat line_link (Z * nat) :=
  mkOps 0%nat 1%nat (fun q => match q with x :: r => (x =? 1)%nat && forallb (Nat.eqb 0) r | [] => false end)
        (fun l => (l_pmin l <=? l_pmax l))
        (fun gs l => mkLink (l_t1 l) (l_pmin l) (l_pmax l) (l_jp l) (list_sum (map snd gs))).
Lemma line_laws : ops_laws line_ops.
Proof.
  constructor; auto. intros r. simpl. apply forallb_forall. intros x Hx. apply repeat_spec in Hx. now subst.
Qed.
Lemma line_link_laws : link_laws line_ops line.
Proof.
  constructor; auto; simpl; intros.
  - apply Z.leb_le. lia.
  - apply Z.leb_le in H. lia.
Qed.
Lemma line_group : talg_laws line.
Proof. constructor; simpl; intros; lia. Qed.

Notation line_system := (System nat line_link (Z * nat) unit).
Definition lk (t lo hi : Z) (r : nat) : line_link := mkLink t lo hi tt r.
(** root (free) - { a (ry) - { b (rx), c (frozen) }, d (px) }, numbered depth first. *)
Definition line5 : line_system :=
  mkSys [-1; 0; 1; 1; 0] [lk 1 0 2 3; lk 10 9 12 4; lk 5 5 5 0; lk 7 7 7 0; lk (-3) (-4) (-2) 9]
    ["free"; "ry"; "rx"; "frozen"; "px"]%string
    (seq 0 9) (seq 20 9) (seq 40 9) ([1; 0; 0; 0; 5; 6; 7; 8; 9; 3]%nat) 1%nat
    [(-1, (100, 50%nat)); (0, (2, 1%nat)); (0, (3, 2%nat)); (1, (1, 4%nat)); (4, (0, 9%nat))] [0; 0; 9]%nat "semi_implicit_euler" 0
    ["root"; "a"; "b"; "c"; "d"]%string (Some "line"%string) [tt; tt; tt; tt; tt].
Lemma line5_parsed : parsed builtin_widths line_ops line5.
Proof. parsed_by_compute line_laws. Qed.
Definition zero_joint (_ : string) (_ : unit) : Z := 0.

Section Claims.
Context {K T P J R G O : Type}.
Variable W : widths.
Notation Sys := (System K (mlink T P J R) (T * G) O).
Variable ops : parse_ops K (mlink T P J R) (T * G).
Variable A : talg T P.
Variable jt : string -> J -> T.
Hypothesis laws : ops_laws ops.
Hypothesis llaws : link_laws ops A.
Implicit Types s : Sys.

(** C10.  A request that names existing links, hangs every link on the world and uses only edges that
    existed before is accepted; the result is the permuted system with the requested parents, the joint
    data of [joint_from], the geometries on their links, parents before children. *)
Theorem C10_morph_permutes s refs np :
  parsed W ops s -> num_links s <> 0%nat -> length refs = num_links s -> mapM (resolve s) refs = Ok np ->
  (forall i, (i < num_links s)%nat -> hangs np i) -> edges_kept (link_parents s) np ->
  exists s' perm, morph_system W ops A jt s (Some refs) None = Ok s' /\ parsed W ops s' /\ morphed W s np perm s'.
Proof.
  intros PD NE L M AH EK. unfold morph_system. rewrite L, Nat.eqb_refl, M. cbn [assert_ bind].
  apply morph_total; auto. rewrite <- L. eapply mapM_Ok_length; eauto.
Qed.

(** C10.  A cycle, a dangling number, or any link that does not reach the world: ValueError. *)
Theorem C10_rejects_cycles s refs np i :
  length refs = num_links s -> mapM (resolve s) refs = Ok np -> (i < num_links s)%nat -> ~ hangs np i ->
  morph_system W ops A jt s (Some refs) None = Err EValue.
Proof.
  intros L M Hi N. unfold morph_system. rewrite L, Nat.eqb_refl, M. cbn [assert_ bind].
  apply morph_no_tree; eauto. rewrite <- L. eapply mapM_Ok_length; eauto.
Qed.

(** C10.  A tree with an edge between links that were not connected: AssertionError. *)
Theorem C10_rejects_new_edges s refs np :
  wf W s -> length refs = num_links s -> mapM (resolve s) refs = Ok np ->
  (forall i, (i < num_links s)%nat -> hangs np i) -> ~ edges_kept (link_parents s) np ->
  morph_system W ops A jt s (Some refs) None = Err EAssertion.
Proof.
  intros WF L M AH N. unfold morph_system. rewrite L, Nat.eqb_refl, M. cbn [assert_ bind].
  apply (morph_new_edge W); auto. rewrite <- L. eapply mapM_Ok_length; eauto.
Qed.

(** C10.  An unknown name, or the wrong number of parents. *)
Theorem C10_rejects_unknown s (refs : list parent_ref) nm : length refs = num_links s -> In (inr nm) refs -> ~ In nm (link_names s) ->
  morph_system W ops A jt s (Some refs) None = Err EValue.
Proof.
  intros L I N. unfold morph_system. rewrite L, Nat.eqb_refl. cbn [assert_ bind].
  rewrite (mapM_err _ EValue); auto.
  - intros [z|nm'] y _ E; simpl in E; [discriminate|].
    destruct (in_dec string_dec nm' (link_names s)) as [X|X].
    + destruct (indexS_In _ _ X) as [k Hk]. unfold name_to_idx in E. rewrite Hk in E. discriminate.
    + unfold name_to_idx in E. rewrite indexS_not_In in E by auto. simpl in E. congruence.
  - exists (inr nm). split; auto. simpl. unfold name_to_idx. now rewrite indexS_not_In.
Qed.
Theorem C10_rejects_wrong_length s refs : length refs <> num_links s ->
  morph_system W ops A jt s (Some refs) None = Err EAssertion.
Proof. intros H. unfold morph_system. apply Nat.eqb_neq in H. rewrite H. reflexivity. Qed.

(** C10.  With exactly one new root no joint is used twice (and so none is lost). *)
Theorem C10_joints_used_once s np i i' j :
  wf W s -> length np = num_links s -> (forall i, (i < num_links s)%nat -> hangs np i) -> edges_kept (link_parents s) np ->
  (forall a b, nth_error np a = Some (-1) -> nth_error np b = Some (-1) -> a = b) ->
  joint_from (link_parents s) np i j -> joint_from (link_parents s) np i' j -> i = i'.
Proof.
  intros WF L AH EK. apply joint_from_inj; auto; [apply (wf_topo _ _ WF)|]. intros k Hk. apply AH. lia.
Qed.

(** C09/C10.  Re-anchoring by name or index: accepted for every link of every tree with one root. *)
Theorem C10_new_anchor s a : parsed W ops s -> (a < num_links s)%nat -> connected (link_parents s) ->
  exists np s' perm, rerooted (link_parents s) a np /\ morph_system W ops A jt s None (Some (inl a)) = Ok s' /\
    parsed W ops s' /\ morphed W s np perm s'.
Proof.
  intros PD Ha C. pose proof (wf_topo _ _ (pd_wf _ _ _ PD)) as TP.
  destruct (autodetermine_spec (link_parents s) a TP Ha) as [X _]. destruct (X C) as (np & E & R1).
  unfold morph_system. cbn [bind]. rewrite E. cbn [bind].
  destruct R1 as (L & RA & H).
  destruct C as [r0 C].
  assert (EK : edges_kept (link_parents s) np).
  { intros i p Hp. assert (Hi : (i < length (link_parents s))%nat) by (rewrite <- L; apply nth_error_Some; congruence).
    destruct (Nat.eq_dec i a) as [->|N]; [assert (-1 = Z.of_nat p) by congruence; lia|].
    destruct (H i Hi N) as [H1 H2]. destruct (descends_dec _ TP i a) as [D|D].
    - destruct (H1 D) as (c & E1 & _ & E2). assert (c = p) by (apply Nat2Z.inj; congruence). subst. now right.
    - left. rewrite <- (H2 D). exact Hp. }
  assert (UP : forall c, descends (link_parents s) c a -> (c < length (link_parents s))%nat -> hangs np c).
  { intros c Dc Lc. remember (a - c)%nat as d eqn:Ed. revert c Dc Lc Ed. induction d as [d IH] using lt_wf_ind. intros c Dc Lc Ed.
    destruct (Nat.eq_dec c a) as [->|N]; [now apply hangs_root|].
    destruct (H c Lc N) as [H1 _]. destruct (H1 Dc) as (c' & E1 & D' & E2).
    pose proof (TP _ _ E1). pose proof (topo_desc_le _ _ _ TP D').
    apply hangs_step with (p := c'); auto. apply (IH (a - c')%nat); auto; try lia. apply nth_error_Some. congruence. }
  assert (AH : forall i, (i < num_links s)%nat -> hangs np i).
  { intros i. induction i as [i IH] using lt_wf_ind. intros Hi.
    destruct (descends_dec _ TP i a) as [D|D]; [now apply UP|].
    assert (N : i <> a) by (intros ->; apply D; constructor).
    destruct (H i Hi N) as [_ H2]. specialize (H2 D).
    destruct (nth_error (link_parents s) i) as [p|] eqn:Ep; [|apply nth_error_None in Ep; unfold num_links in Hi; lia].
    pose proof (TP _ _ Ep). destruct (Z.eq_dec p (-1)) as [->|Np]; [now apply hangs_root|].
    apply hangs_step with (p := Z.to_nat p); [rewrite H2; f_equal; lia|]. apply IH; lia. }
  destruct (morph_total W ops A jt laws llaws s np) as (s' & pm & E1 & E2 & E3); auto; try lia.
  exists np, s', pm. repeat (split; auto).
Qed.

Hypothesis glaws : talg_laws A.

(** C11.  In the default state (all joint transforms the identity) every geometry has the same pose in
    the world before and after, hence the same pose relative to every other geometry. *)
Theorem C11_geometries_do_not_move s np s' : parsed W ops s ->
  (forall i ty l, nth_error (link_types s) i = Some ty -> nth_error (links s) i = Some l -> jt ty (l_jp l) = tid A) ->
  morph_parents W ops A jt s np = Ok s' -> num_links s <> 0%nat ->
  exists perm, morphed W s np perm s' /\
  forall xs xs', posed A jt s xs -> posed A jt s' xs' ->
    attached (-1) (geoms s') = attached (-1) (geoms s) /\
    forall m i x x', nth_error perm m = Some i -> nth_error xs i = Some x -> nth_error xs' m = Some x' ->
      Forall2 (fun g g' => snd g' = snd g /\ tmul A (fst g') x' = tmul A (fst g) x)
        (attached (Z.of_nat i) (geoms s)) (attached (Z.of_nat m) (geoms s')).
Proof. exact (morph_poses W ops A jt laws llaws glaws s np s'). Qed.

(** Default poses exist and are what the model's forward kinematics computes. *)
Theorem C11_poses_exist s : parsed W ops s -> exists xs, fk_default A jt s (map l_t1 (links s)) = Ok xs /\ posed A jt s xs.
Proof.
  intros PD. destruct (fk_default_ok W ops A jt s (link_parents s) PD eq_refl (map l_t1 (links s))) as (xs & E & _).
  - rewrite map_length. apply (wf_links _ _ (pd_wf _ _ _ PD)).
  - exists xs. split; auto. eapply (fk_posed W ops A jt s (link_parents s)); eauto.
Qed.

(** C12, the part that holds: with one root, links numbered depth first and default joints at the
    identity, morphing to the current parents returns the same system. *)
Theorem C12_same_parents_partial s refs : parsed W ops s -> num_links s <> 0%nat ->
  length refs = num_links s -> mapM (resolve s) refs = Ok (link_parents s) ->
  depth_first (link_parents s) -> (forall i, nth_error (link_parents s) i = Some (-1) -> i = 0%nat) ->
  (forall i ty l, nth_error (link_types s) i = Some ty -> nth_error (links s) i = Some l -> jt ty (l_jp l) = tid A) ->
  morph_system W ops A jt s (Some refs) None = Ok s.
Proof.
  intros PD NE L M DF OR JT. unfold morph_system. rewrite L, Nat.eqb_refl, M. cbn [assert_ bind].
  apply morph_identity; auto.
Qed.
End Claims.

(** Hypotheses met: re-anchoring line5 at "b", morphing it to its own parents, rejected requests. *)
Example C10_example :
  (exists s', morph_system builtin_widths line_ops line zero_joint line5 None (Some (inr "b"%string)) = Ok s' /\
     link_names s' = ["b"; "a"; "root"; "d"; "c"]%string /\ link_parents s' = [-1; 0; 1; 2; 1] /\
     link_types s' = ["free"; "rx"; "ry"; "px"; "frozen"]%string /\
     map l_t1 (links s') = [16; 0; -5; -13; 2]) /\
  morph_system builtin_widths line_ops line zero_joint line5
    (Some [inl (-1); inr "root"; inr "a"; inr "a"; inr "root"]%string) None = Ok line5 /\
  morph_system builtin_widths line_ops line zero_joint line5
    (Some [inr "a"; inr "root"; inr "a"; inr "a"; inr "root"]%string) None = Err EValue /\
  morph_system builtin_widths line_ops line zero_joint line5
    (Some [inl (-1); inr "root"; inr "root"; inr "a"; inr "root"]%string) None = Err EAssertion.
Proof.
  split; [|vm_compute; auto]. eexists. split; [vm_compute; reflexivity|]. vm_compute. auto.
Qed.

Example C12_example : depth_first (link_parents line5) /\
  (forall i, nth_error (link_parents line5) i = Some (-1) -> i = 0%nat) /\
  (exists s', morph_parents builtin_widths line_ops line zero_joint line5 [1; 2; -1; 1; 0] = Ok s').
Proof.
  split; [|split].
  - assert (D0 : forall j, (j < 4)%nat -> descends (link_parents line5) 0 j).
    { intros [|[|[|[|j]]]] H; try lia; repeat first [apply desc_refl | eapply (desc_step _ _ _ 0); [reflexivity|] |
        eapply (desc_step _ _ _ 1); [reflexivity|]]. }
    intros [|[|[|[|[|i]]]]] p H; simpl in H; try discriminate; 
      try (assert (p = 0%nat) by (apply Nat2Z.inj; simpl; congruence); subst; apply D0; lia);
      assert (p = 1%nat) by (apply Nat2Z.inj; simpl; congruence); subst; [apply desc_refl|].
    apply (desc_step _ _ _ 1); [reflexivity|apply desc_refl].
  - intros [|[|[|[|[|i]]]]] H; simpl in H; try discriminate; auto. destruct i; discriminate.
  - vm_compute. eauto.
Qed.

(** C12 fails as stated.  (a) Links not numbered depth first (what inject_system produces when it adds
    below an inner link) are reordered. *)
Definition line_bfs : line_system :=
  mkSys [-1; 0; 0; 1] [lk 1 0 2 0; lk 10 9 12 0; lk 5 5 5 0; lk 7 7 7 0]
    ["free"; "ry"; "rx"; "frozen"]%string
    (seq 0 8) (seq 20 8) (seq 40 8) ([1; 0; 0; 0; 5; 6; 7; 8; 9]%nat) 1%nat
    [] [0; 0; 9]%nat "semi_implicit_euler" 0 ["root"; "a"; "b"; "c"]%string None [tt; tt; tt; tt].
(** (b) With two roots the second root receives the joint of the first. *)
Definition line_roots : line_system :=
  mkSys [-1; -1] [lk 1 0 2 0; lk 10 9 12 0] ["ry"; "px"]%string
    [1; 2]%nat [1; 2]%nat [3; 4]%nat [5; 6]%nat 1%nat
    [] [0; 0; 9]%nat "semi_implicit_euler" 0 ["l"; "r"]%string None [tt; tt].

Theorem C12_same_parents_refuted :
  parsed builtin_widths line_ops line_bfs /\ parsed builtin_widths line_ops line_roots /\
  (exists s', morph_system builtin_widths line_ops line zero_joint line_bfs
     (Some [inl (-1); inr "root"; inr "root"; inr "a"]%string) None = Ok s' /\
     link_names s' = ["root"; "a"; "c"; "b"]%string /\ s' <> line_bfs) /\
  (exists s', morph_system builtin_widths line_ops line zero_joint line_roots (Some [inl (-1); inl (-1)]) None = Ok s' /\
     link_types line_roots = ["ry"; "px"]%string /\ link_types s' = ["ry"; "ry"]%string).
Proof.
  split; [parsed_by_compute line_laws|]. split; [parsed_by_compute line_laws|]. split.
  - eexists. split; [vm_compute; reflexivity|]. split; [reflexivity|]. intros E.
    apply (f_equal link_names) in E. vm_compute in E. discriminate.
  - eexists. split; [vm_compute; reflexivity|]. split; reflexivity.
Qed.

Print Assumptions C09_new_anchor_reroots.
Print Assumptions C09_rerooted_unique.
Print Assumptions C10_morph_permutes.
Print Assumptions C10_rejects_cycles.
Print Assumptions C10_rejects_new_edges.
Print Assumptions C10_rejects_unknown.
Print Assumptions C10_rejects_wrong_length.
Print Assumptions C10_joints_used_once.
Print Assumptions C10_new_anchor.
Print Assumptions C11_geometries_do_not_move.
Print Assumptions C11_poses_exist.
Print Assumptions C12_same_parents_partial.
Print Assumptions C12_same_parents_refuted.
