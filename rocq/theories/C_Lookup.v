(** * C55: looking up the links below a link. *)
From Coq Require Import String ZArith Lia Bool List.
From Verif Require Import Prelude M_Sys S_Sys M_Compose P_Delete P_Tree P_Dfs M_Rand X_Toy.
Import ListNotations.
Local Open Scope Z_scope.

(** Direct children, by position. *)
Definition kids (lam : list Z) (k : nat) : list nat :=
  map fst (filter (fun ip => snd ip =? Z.of_nat k) (enum lam)).

Lemma enum_In {A} (l : list A) i a : In (i, a) (enum l) <-> nth_error l i = Some a.
Proof.
  unfold enum. split.
  - intros H. apply In_nth_error in H. destruct H as (n & H). rewrite nth_error_enum_from in H.
    destruct (nth_error l n) eqn:E; [|discriminate]. cbn in H. injection H as <- <-. auto.
  - intros H. apply (nth_error_In _ i). rewrite nth_error_enum_from, H. reflexivity.
Qed.

Lemma enum_fst {A} (l : list A) : map fst (enum l) = seq 0 (length l).
Proof.
  unfold enum. generalize 0%nat. induction l as [|a l IH]; intros k; cbn; [reflexivity|]. now rewrite IH.
Qed.

Lemma NoDup_map_filter {A B} (f : A -> B) p l : NoDup (map f l) -> NoDup (map f (filter p l)).
Proof.
  induction l as [|a l IH]; intros H; cbn in *; auto. inversion H; subst.
  destruct (p a); cbn; auto. constructor; auto. rewrite in_map_iff. intros (x & E & Hx).
  apply filter_In in Hx. apply H2. rewrite <- E. apply in_map. tauto.
Qed.

Lemma kids_In lam k i : In i (kids lam k) <-> nth_error lam i = Some (Z.of_nat k).
Proof.
  unfold kids. rewrite in_map_iff. split.
  - intros ((j & p) & E & H). cbn in E. subst j. apply filter_In in H. destruct H as [H1 H2].
    apply enum_In in H1. cbn in H2. apply Z.eqb_eq in H2. now subst.
  - intros H. exists (i, Z.of_nat k). split; auto. apply filter_In. split; [now apply enum_In|]. cbn. apply Z.eqb_refl.
Qed.

Lemma kids_NoDup lam k : NoDup (kids lam k).
Proof. apply NoDup_map_filter. rewrite enum_fst. apply seq_NoDup. Qed.

Section Below.
Variable lam : list Z.
Hypothesis T : topo lam.

(** The pure index-level versions of the two traversals. *)
Fixpoint level (f : nat) (k : nat) : list nat :=
  match f with 0%nat => [] | S f => kids lam k ++ flat_map (level f) (kids lam k) end.
Fixpoint preord (f : nat) (k : nat) : list nat :=
  match f with 0%nat => [] | S f => flat_map (fun c => c :: preord f c) (kids lam k) end.

Lemma kid_bounds c k : In c (kids lam k) -> (k < c /\ c < length lam)%nat.
Proof.
  rewrite kids_In. intros H. split; [pose proof (T _ _ H); lia|]. apply nth_error_Some. congruence.
Qed.

Lemma kids_nil k : (length lam <= S k)%nat -> kids lam k = [].
Proof. intros H. destruct (kids lam k) as [|c r] eqn:E; auto. assert (In c (kids lam k)) by (rewrite E; now left). apply kid_bounds in H0. lia. Qed.

Lemma level_In : forall f k i, (length lam <= f + k)%nat -> (In i (level f k) <-> descends lam k i /\ i <> k).
Proof.
  induction f as [|f IH]; intros k i Hf; cbn [level].
  - split; [intros []|]. intros [D N]. inversion D as [|? p Hp D']; subst; [congruence|].
    pose proof (topo_desc_le _ _ _ T D). assert (i < length lam)%nat by (apply nth_error_Some; congruence). lia.
  - rewrite in_app_iff, in_flat_map. split.
    + intros [H|(c & Hc & H)].
      * pose proof (kid_bounds _ _ H). apply kids_In in H. split; [|lia]. eapply desc_step; eauto. constructor.
      * pose proof (kid_bounds _ _ Hc) as B. apply IH in H; [|lia]. destruct H as [D N].
        pose proof (topo_desc_le _ _ _ T D). split; [|lia]. apply kids_In in Hc.
        eapply descends_trans; eauto. eapply desc_step; eauto. constructor.
    + intros [D N]. destruct (child_on_path lam k i D (fun e => N (eq_sym e))) as (c & Hc & Dc).
      apply kids_In in Hc. destruct (Nat.eq_dec i c) as [->|Ni]; [now left|].
      right. exists c. split; auto. apply IH; auto. pose proof (kid_bounds _ _ Hc). lia.
Qed.

Lemma preord_In : forall f k i, (length lam <= f + k)%nat -> (In i (preord f k) <-> descends lam k i /\ i <> k).
Proof.
  induction f as [|f IH]; intros k i Hf; cbn [preord].
  - split; [intros []|]. intros [D N]. inversion D as [|? p Hp D']; subst; [congruence|].
    pose proof (topo_desc_le _ _ _ T D). assert (i < length lam)%nat by (apply nth_error_Some; congruence). lia.
  - rewrite in_flat_map. split.
    + intros (c & Hc & H). pose proof (kid_bounds _ _ Hc) as B.
      assert (Dc : descends lam k c) by (apply kids_In in Hc; eapply desc_step; eauto; constructor).
      destruct H as [<-|H]; [split; [auto|lia]|].
      apply IH in H; [|lia]. destruct H as [D N].
      pose proof (topo_desc_le _ _ _ T D). split; [|lia]. eapply descends_trans; eauto.
    + intros [D N]. destruct (child_on_path lam k i D (fun e => N (eq_sym e))) as (c & Hc & Dc).
      apply kids_In in Hc. exists c. split; auto. cbn. destruct (Nat.eq_dec i c) as [->|Ni]; [now left|].
      right. apply IH; auto. pose proof (kid_bounds _ _ Hc). lia.
Qed.

Lemma NoDup_app_intro {A} (l1 l2 : list A) : NoDup l1 -> NoDup l2 -> (forall b, In b l1 -> ~ In b l2) -> NoDup (l1 ++ l2).
Proof.
  induction l1 as [|b l1 IH]; intros N1 N2 H; cbn; auto. inversion N1; subst. constructor.
  - rewrite in_app_iff. intros [X|X]; auto. apply (H b); auto. now left.
  - apply IH; auto. intros c Hc. apply H. now right.
Qed.

Lemma level_NoDup : forall f k, (length lam <= f + k)%nat -> NoDup (level f k).
Proof.
  induction f as [|f IH]; intros k Hf; cbn [level]; [constructor|].
  apply NoDup_app_intro; [apply kids_NoDup| |].
  - apply NoDup_flat_map; [apply kids_NoDup| |].
    + intros c Hc. apply IH. pose proof (kid_bounds _ _ Hc). lia.
    + intros c d b Hc Hd N H1 H2. pose proof (kid_bounds _ _ Hc). pose proof (kid_bounds _ _ Hd).
      apply level_In in H1; [|lia]. apply level_In in H2; [|lia]. apply N.
      apply kids_In in Hc, Hd. exact (siblings_disjoint lam T k c d b Hc Hd (proj1 H1) (proj1 H2)).
  - intros b Hb H. apply in_flat_map in H. destruct H as (c & Hc & H). pose proof (kid_bounds _ _ Hc).
    apply level_In in H; [|lia]. destruct H as [D N]. apply kids_In in Hb, Hc.
    apply N. symmetry. eapply (siblings_disjoint lam T); eauto. constructor.
Qed.

Lemma preord_NoDup : forall f k, (length lam <= f + k)%nat -> NoDup (preord f k).
Proof.
  induction f as [|f IH]; intros k Hf; cbn [preord]; [constructor|].
  assert (X : forall c b, In c (kids lam k) -> In b (c :: preord f c) -> descends lam c b).
  { intros c b Hc [<-|Hb]; [constructor|]. pose proof (kid_bounds _ _ Hc). apply preord_In in Hb; [tauto|lia]. }
  apply NoDup_flat_map; [apply kids_NoDup| |].
  - intros c Hc. pose proof (kid_bounds _ _ Hc). constructor; [|apply IH; lia].
    intros Hb. apply preord_In in Hb; [tauto|lia].
  - intros c d b Hc Hd N H1 H2. apply N. pose proof (X _ _ Hc H1) as D1. pose proof (X _ _ Hd H2) as D2.
    apply kids_In in Hc, Hd. exact (siblings_disjoint lam T k c d b Hc Hd D1 D2).
Qed.

(** Enough fuel: the model's traversal is the pure one. *)
Lemma find_children_preord : forall f k, (length lam <= f + k)%nat -> find_children (S f) lam k = Ok (preord (S f) k).
Proof.
  induction f as [|f IH]; intros k Hf; cbn [find_children].
  - assert (E : forall l, (forall ip, In ip l -> In ip (enum lam)) ->
      mapM (fun ip => if snd ip =? Z.of_nat k then do r <- @Err (list nat) EOutOfFuel; Ok (fst ip :: r) else Ok []) l
        = Ok (map (fun _ => []) l)).
    { induction l as [|(i, p) l IH]; intros H; cbn [mapM map]; [reflexivity|]. cbn [fst snd].
      assert (Hi := H _ (or_introl eq_refl)). apply enum_In in Hi.
      destruct (p =? Z.of_nat k) eqn:E.
      - apply Z.eqb_eq in E. subst p. apply kids_In in Hi. rewrite kids_nil in Hi by lia. destruct Hi.
      - rewrite IH by (intros; apply H; now right). reflexivity. }
    rewrite E by auto. cbn [bind]. cbn [preord]. rewrite kids_nil by lia. cbn [flat_map].
    f_equal. generalize (enum lam). clear. induction l; cbn; auto.
  - assert (E : forall l, (forall ip, In ip l -> In ip (enum lam)) ->
      mapM (fun ip => if snd ip =? Z.of_nat k then do r <- find_children (S f) lam (fst ip); Ok (fst ip :: r) else Ok []) l
        = Ok (map (fun ip => if snd ip =? Z.of_nat k then fst ip :: preord (S f) (fst ip) else []) l)).
    { induction l as [|(i, p) l IHl]; intros H; cbn [mapM map]; [reflexivity|]. cbn [fst snd].
      assert (Hi := H _ (or_introl eq_refl)). apply enum_In in Hi.
      destruct (p =? Z.of_nat k) eqn:E.
      - apply Z.eqb_eq in E. subst p. apply kids_In in Hi. apply kid_bounds in Hi. rewrite IHl by (intros; apply H; now right). rewrite IH by lia. reflexivity.
      - rewrite IHl by (intros; apply H; now right). reflexivity. }
    rewrite E by auto. cbn [bind]. f_equal. unfold kids. change (preord (S (S f)) k) with
      (flat_map (fun c => c :: preord (S f) c) (kids lam k)). unfold kids.
    generalize (enum lam). clear. induction l as [|(i, p) l IH]; cbn [map concat filter]; [reflexivity|].
    cbn [snd fst]. destruct (p =? Z.of_nat k); cbn [map flat_map concat app]; rewrite IH; reflexivity.
Qed.
End Below.

Section Sys.
Context {K L G O : Type}.
Variable W : widths.
Notation sysT := (System K L G O).

(** All the names lie below link [k]. *)
Definition names_below (s : sysT) (k : nat) (l : list string) : Prop :=
  NoDup l /\ forall nm, In nm l <->
    exists i, nth_error (link_names s) i = Some nm /\ descends (link_parents s) k i /\ i <> k.

Lemma names_length (s : sysT) : wf W s -> length (link_names s) = length (link_parents s).
Proof. intros H. apply (wf_names _ _ H). Qed.

Lemma name_idx (s : sysT) k name : wf W s -> nth_error (link_names s) k = Some name -> name_to_idx s name = Ok k.
Proof. intros H E. unfold name_to_idx. apply indexS_NoDup; auto. apply (wf_unique _ _ H). Qed.

Lemma names_of (s : sysT) l : wf W s -> (forall i, In i l -> (i < length (link_parents s))%nat) ->
  exists ns, mapM (fun i => idx_to_name s (Z.of_nat i) false) l = Ok ns /\
    Forall2 (fun i n => nth_error (link_names s) i = Some n) l ns.
Proof.
  intros H. induction l as [|i l IH]; intros B; cbn [mapM].
  - exists []. split; [reflexivity|constructor].
  - destruct (nth_error (link_names s) i) as [n|] eqn:E;
      [|apply nth_error_None in E; rewrite names_length in E by auto; specialize (B i (or_introl eq_refl)); lia].
    destruct IH as (ns & E1 & E2); [intros; apply B; now right|].
    exists (n :: ns). split; [|constructor; auto]. unfold idx_to_name at 1. cbn [andb].
    replace (0 <=? Z.of_nat i) with true by (symmetry; apply Z.leb_le; lia). cbn [assert_ bind].
    rewrite (proj2 (py_get_nonneg (link_names s) (Z.of_nat i) n ltac:(lia))) by (now rewrite Nat2Z.id). cbn [bind]. rewrite E1. reflexivity.
Qed.

Lemma sub_level (s : sysT) : wf W s -> forall f k name, (length (link_parents s) <= f + k)%nat ->
  nth_error (link_names s) k = Some name ->
  exists ns, findall_bodies_subsystem (S f) s name = Ok ns /\
    Forall2 (fun i n => nth_error (link_names s) i = Some n) (level (link_parents s) (S f) k) ns.
Proof.
  intros H. pose proof (wf_topo _ _ H) as T. induction f as [|f IH]; intros k name Hf Hk.
  - assert (Ek : kids (link_parents s) k = []) by (apply kids_nil; auto; lia).
    exists []. cbn [level]. rewrite Ek. split; [|constructor].
    cbn [findall_bodies_subsystem]. unfold children_names, children.
    rewrite (name_idx _ _ _ H Hk). cbn [bind]. unfold kids in Ek. rewrite Ek. reflexivity.
  - destruct (names_of s (kids (link_parents s) k) H) as (cs & E1 & E2).
    { intros i Hi. apply (kid_bounds _ T) in Hi. lia. }
    assert (X : exists gs, mapM (findall_bodies_subsystem (S f) s) cs = Ok gs /\
       Forall2 (fun i n => nth_error (link_names s) i = Some n)
         (flat_map (level (link_parents s) (S f)) (kids (link_parents s) k)) (concat gs)).
    { clear E1. assert (B : forall c, In c (kids (link_parents s) k) -> (k < c)%nat)
        by (intros c Hc; apply (kid_bounds _ T) in Hc; lia).
      revert B E2. generalize (kids (link_parents s) k). intros l B E2.
      induction E2 as [|c n l cs Hc E2 IHl]; cbn [mapM flat_map].
      - exists []. split; [reflexivity|constructor].
      - specialize (B c (or_introl eq_refl)) as Bc.
        destruct (IH c n) as (g & G1 & G2); [lia|auto|].
        destruct IHl as (gs & G3 & G4); [intros; apply B; now right|].
        exists (g :: gs). rewrite G1. cbn [bind]. rewrite G3. cbn [bind concat]. split; [reflexivity|].
        apply Forall2_app; auto. }
    destruct X as (gs & G1 & G2). exists (cs ++ concat gs). split.
    + change (findall_bodies_subsystem (S (S f)) s name) with
        (do cs <- children_names s name; do gs <- mapM (findall_bodies_subsystem (S f) s) cs; Ok (cs ++ concat gs)).
      unfold children_names, children. rewrite (name_idx _ _ _ H Hk). cbn [bind].
      unfold kids in E1. rewrite E1. cbn [bind]. rewrite G1. reflexivity.
    + change (level (link_parents s) (S (S f)) k) with
        (kids (link_parents s) k ++ flat_map (level (link_parents s) (S f)) (kids (link_parents s) k)).
      apply Forall2_app; auto.
Qed.

Lemma F2_In_r {A B} (R : A -> B -> Prop) l l' b : Forall2 R l l' -> In b l' -> exists a, In a l /\ R a b.
Proof. induction 1; intros []; [subst; eexists; split; [now left|auto]|]. destruct IHForall2 as (a & A1 & A2); auto. exists a. split; [now right|auto]. Qed.
Lemma F2_In_l {A B} (R : A -> B -> Prop) l l' a : Forall2 R l l' -> In a l -> exists b, In b l' /\ R a b.
Proof. induction 1; intros []; [subst; eexists; split; [now left|auto]|]. destruct IHForall2 as (b & A1 & A2); auto. exists b. split; [now right|auto]. Qed.

Lemma F2_NoDup (s : sysT) l ns : wf W s -> NoDup l -> Forall2 (fun i n => nth_error (link_names s) i = Some n) l ns -> NoDup ns.
Proof.
  intros H N F. induction F as [|i n l ns Hi F IH]; [constructor|]. inversion N; subst.
  constructor; auto. intros Hn. destruct (F2_In_r _ _ _ _ F Hn) as (j & J1 & J2).
  assert (i = j) by (eapply NoDup_nth_error_inj; [apply (wf_unique _ _ H)|eauto|eauto]). subst. contradiction.
Qed.

(** C55.  The direct children of a link, in increasing order, and their names. *)
Theorem C55_children (s : sysT) k name : wf W s -> nth_error (link_names s) k = Some name ->
  exists cs ns, children s name = Ok cs /\ children_names s name = Ok ns /\
    NoDup cs /\ (forall i, In i cs <-> nth_error (link_parents s) i = Some (Z.of_nat k)) /\
    Forall2 (fun i n => nth_error (link_names s) i = Some n) cs ns.
Proof.
  intros H Hk. destruct (names_of s (kids (link_parents s) k) H) as (ns & E1 & E2).
  { intros i Hi. apply (kid_bounds _ (wf_topo _ _ H)) in Hi. lia. }
  exists (kids (link_parents s) k), ns. unfold children_names, children. rewrite (name_idx _ _ _ H Hk). cbn [bind].
  split; [reflexivity|]. split; [exact E1|]. split; [apply kids_NoDup|]. split; [intros; apply kids_In|auto].
Qed.

(** C55.  All links below a link: each exactly once, no other, not the link itself. *)
Theorem C55_subsystem (s : sysT) k name : wf W s -> nth_error (link_names s) k = Some name ->
  exists ns, findall_bodies_subsystem (S (num_links s)) s name = Ok ns /\ names_below s k ns.
Proof.
  intros H Hk. destruct (sub_level s H (num_links s) k name) as (ns & E1 & E2); auto; [unfold num_links; lia|].
  exists ns. split; auto. assert (Hf : (length (link_parents s) <= S (num_links s) + k)%nat) by (unfold num_links; lia).
  pose proof (wf_topo _ _ H) as T. split.
  - eapply F2_NoDup; eauto. apply level_NoDup; auto.
  - intros nm. split.
    + intros Hn. destruct (F2_In_r _ _ _ _ E2 Hn) as (i & I1 & I2). exists i. split; auto. apply level_In in I1; auto.
    + intros (i & I1 & I2). apply (level_In _ T (S (num_links s))) in I2; auto.
      destruct (F2_In_l _ _ _ _ E2 I2) as (b & B1 & B2). congruence.
Qed.

(** C55.  The same by position. *)
Theorem C55_subsystem_indices (s : sysT) k name : wf W s -> nth_error (link_names s) k = Some name ->
  exists l, findall_bodies_subsystem_idx (S (num_links s)) s name = Ok l /\ NoDup l /\
    forall i, In i l <-> descends (link_parents s) k i /\ i <> k.
Proof.
  intros H Hk. destruct (sub_level s H (num_links s) k name) as (ns & E1 & E2); auto; [unfold num_links; lia|].
  assert (Hf : (length (link_parents s) <= S (num_links s) + k)%nat) by (unfold num_links; lia).
  exists (level (link_parents s) (S (num_links s)) k). pose proof (wf_topo _ _ H) as T.
  split; [|split; [apply level_NoDup; auto|intros; apply level_In; auto]].
  unfold findall_bodies_subsystem_idx. rewrite E1. cbn [bind]. clear - E2 H.
  induction E2 as [|i n l ns Hi E2 IH]; cbn [mapM]; [reflexivity|]. rewrite (name_idx _ _ _ H Hi). cbn [bind].
  rewrite IH. reflexivity.
Qed.

(** C55.  An unknown link is an error, not an empty list. *)
Theorem C55_unknown (s : sysT) name f : ~ In name (link_names s) ->
  children s name = Err EValue /\ findall_bodies_subsystem (S f) s name = Err EValue.
Proof.
  intros H. assert (E : name_to_idx s name = Err EValue) by (now apply indexS_not_In).
  unfold children. cbn [findall_bodies_subsystem]. unfold children_names, children. rewrite E. auto.
Qed.

(** C55.  The traversal used when anchors are randomised visits the same links, also exactly once. *)
Theorem C55_find_children (lam : list Z) k : topo lam ->
  exists l, find_children (S (length lam)) lam k = Ok l /\ NoDup l /\
    forall i, In i l <-> descends lam k i /\ i <> k.
Proof.
  intros T. exists (preord lam (S (length lam)) k). split; [apply find_children_preord; auto; lia|].
  split; [apply preord_NoDup; auto; lia|]. intros. apply preord_In; auto; lia.
Qed.
End Sys.

Example C55_instance : exists ns,
  wf builtin_widths toy /\ nth_error (link_names toy) 0 = Some "seg1"%string /\
  findall_bodies_subsystem (S (num_links toy)) toy "seg1" = Ok ns /\ length ns = 3%nat.
Proof. eexists. split; [apply toy_parsed|]. split; [reflexivity|]. split; [vm_compute; reflexivity|reflexivity]. Qed.
Example C55_instance2 :
  find_children 6 [-1; 0; 1; 0; -1] 0 = Ok [1; 2; 3]%nat.
Proof. vm_compute. reflexivity. Qed.
Print Assumptions C55_subsystem.
Print Assumptions C55_find_children.
