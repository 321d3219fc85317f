(** * Proofs about automatic re-rooting (C09). *)
From Coq Require Import String ZArith Lia Bool List.
From Verif Require Import Prelude M_Sys S_Sys S_Morph M_Compose M_Morph P_Delete P_Delete2 P_Tree.
Import ListNotations.
Local Open Scope Z_scope.

Notation dict := (list (nat * Z)).
Notation dgetn := (dget (V := Z) Nat.eqb).

(** [visited tgt V nl nl']: exactly the keys in [V] were set, to [tgt]. *)
Definition visited (tgt : nat -> Z) (V : nat -> Prop) (nl nl' : dict) : Prop :=
  (forall j, V j -> dgetn nl' j = Some (tgt j)) /\ (forall j, ~ V j -> dgetn nl' j = dgetn nl j).

Lemma fold_visit tgt (f : dict -> nat -> result dict) (V : nat -> nat -> Prop)
  (Vdec : forall i j, V i j \/ ~ V i j) : forall l nl,
  NoDup l ->
  (forall i nl, In i l -> (forall j, V i j -> dgetn nl j = None) ->
     exists nl', f nl i = Ok nl' /\ visited tgt (V i) nl nl') ->
  (forall i i' j, In i l -> In i' l -> i <> i' -> V i j -> ~ V i' j) ->
  (forall i j, In i l -> V i j -> dgetn nl j = None) ->
  exists nl', foldM f nl l = Ok nl' /\ visited tgt (fun j => exists i, In i l /\ V i j) nl nl'.
Proof.
  induction l as [|i l IH]; intros nl ND Hf Hd Hn; simpl.
  - exists nl. split; auto. split; [intros j (? & [] & _)|auto].
  - inversion ND as [|? ? Ni ND']; subst.
    destruct (Hf i nl) as (nl1 & E1 & V1a & V1b); [now left|intros j; apply Hn; now left|].
    rewrite E1. cbn [bind].
    destruct (IH nl1) as (nl2 & E2 & V2a & V2b); auto.
    + intros i' nl' Hi'. apply Hf. now right.
    + intros a b j Ha Hb. apply Hd; now right.
    + intros i' j Hi' Hv. rewrite V1b; [apply (Hn i'); auto; now right|].
      apply (Hd i' i j); auto; [now right|now left|]. intros ->. contradiction.
    + exists nl2. split; auto. split.
      * intros j (a & [<-|Ha] & Hv).
        -- rewrite V2b; auto. intros (b & Hb & Hvb). apply (Hd i b j); auto; [now left|now right|]. intros ->. contradiction.
        -- apply V2a. eauto.
      * intros j Hj. rewrite V2b, V1b; auto.
        -- intros Hv. apply Hj. exists i. split; auto; now left.
        -- intros (a & Ha & Hv). apply Hj. exists a. split; auto; now right.
Qed.

Lemma dmem_false (nl : dict) i : dgetn nl i = None -> dmem Nat.eqb nl i = false.
Proof. unfold dmem. intros ->. reflexivity. Qed.

Lemma dset_same (nl : dict) i v : dgetn (dset Nat.eqb nl i v) i = Some v.
Proof. apply dget_dset_same. intros; apply Nat.eqb_eq. Qed.
Lemma dset_other (nl : dict) i j v : j <> i -> dgetn (dset Nat.eqb nl i v) j = dgetn nl j.
Proof. apply dget_dset_other. intros; apply Nat.eqb_eq. Qed.

Lemma py_get_nat {A} (l : list A) i a : nth_error l i = Some a -> py_get l (Z.of_nat i) = Ok a.
Proof. intros H. apply py_get_nonneg; [lia|]. now rewrite Nat2Z.id. Qed.

Section Reroot.
Variable lam : list Z.
Hypothesis T : topo lam.
Variable a : nat.
Hypothesis Ha : (a < length lam)%nat.
Notation D := (descends lam).
Notation n := (length lam).

(** The neighbour of [i] on the way to [a]. *)
Variable tgt : nat -> Z.
Hypothesis tgt_up : forall i c, i <> a -> nth_error lam c = Some (Z.of_nat i) -> D c a -> tgt i = Z.of_nat c.
Hypothesis tgt_down : forall i p, ~ D i a -> nth_error lam i = Some p -> tgt i = p.

Definition step (k : nat) (body : nat) (exclude : option nat) : dict -> nat -> result dict :=
  fun nl i =>
      if match exclude with Some e => (i =? e)%nat | None => false end then Ok nl
      else
        do li <- py_get lam (Z.of_nat i);
        do lb <- py_get lam (Z.of_nat body);
        if (li =? Z.of_nat body) || (lb =? Z.of_nat i) then
          do _ <- assert_ (negb (dmem Nat.eqb nl i));
          connections k lam i (Some body) (dset Nat.eqb nl i (Z.of_nat body))
        else Ok nl.

(** Downwards: all proper descendants of [b] get their old parent. *)
Lemma connections_down : forall fuel b e nl,
  (b < n)%nat -> ~ D b a -> nth_error lam b = Some (Z.of_nat e) -> (n - b <= fuel)%nat ->
  (forall j, D b j -> b <> j -> dgetn nl j = None) ->
  exists nl', connections fuel lam b (Some e) nl = Ok nl' /\ visited tgt (fun j => D b j /\ b <> j) nl nl'.
Proof.
  induction fuel as [|k IH]; intros b e nl Hb Hna He Hf Hn; [lia|].
  pose proof (T _ _ He) as He'.
  set (V := fun i j => nth_error lam i = Some (Z.of_nat b) /\ D i j).
  assert (Vdec : forall i j, V i j \/ ~ V i j).
  { intros i j. unfold V. destruct (descends_dec lam T i j); [|tauto].
    destruct (nth_error lam i) as [z|]; [|right; intros []; congruence].
    destruct (Z.eq_dec z (Z.of_nat b)) as [->|]; [left; auto|right; intros []; congruence]. }
  destruct (fold_visit tgt (step k b (Some e)) V Vdec (seq 0 n) nl) as (nl' & E & Va & Vb).
  - apply seq_NoDup.
  - intros i nl0 Hi Hv. apply in_seq in Hi. unfold step.
    destruct (Nat.eqb_spec i e) as [->|Nie].
    { exists nl0. split; auto. split; auto. intros j [X _]. pose proof (T _ _ X). lia. }
    destruct (nth_error lam i) as [li|] eqn:El; [|apply nth_error_None in El; lia].
    rewrite (py_get_nat _ _ _ El), (py_get_nat _ _ _ He). cbn [bind].
    replace (Z.of_nat e =? Z.of_nat i) with false by (symmetry; apply Z.eqb_neq; lia). rewrite orb_false_r.
    destruct (Z.eqb_spec li (Z.of_nat b)) as [->|Nl].
    + rewrite (dmem_false nl0 i) by (apply Hv; split; auto; constructor). cbn [negb assert_ bind].
      assert (Hbi : (b < i)%nat) by (pose proof (T _ _ El); lia).
      assert (Nai : ~ D i a) by (intros X; apply Hna; eapply descends_trans; eauto; eapply desc_step; eauto; constructor).
      destruct (IH i b (dset Nat.eqb nl0 i (Z.of_nat b))) as (nl1 & E1 & V1a & V1b); auto; try lia.
      { intros j Dj Nj. rewrite dset_other by auto. apply Hv. split; auto. }
      exists nl1. split; auto. split.
      * intros j [_ Dj]. destruct (Nat.eq_dec i j) as [<-|N].
        -- rewrite V1b by tauto. rewrite dset_same. f_equal. symmetry. apply tgt_down; auto.
        -- apply V1a. auto.
      * intros j Hj. assert (i <> j) by (intros <-; apply Hj; split; auto; constructor).
        rewrite V1b; [apply dset_other; auto|]. intros [Dj _]. apply Hj. split; auto.
    + exists nl0. split; auto. split; auto. intros j [X _]. congruence.
  - intros i i' j Hi Hi' N [X1 X2] [Y1 Y2]. apply N. eapply siblings_disjoint; eauto.
  - intros i j Hi [X1 X2]. apply Hn.
    + eapply descends_trans; eauto. eapply desc_step; eauto. constructor.
    + intros ->. eapply child_not_ancestor; eauto.
  - exists nl'. split; [exact E|]. split.
    + intros j [Dj Nj]. apply Va. destruct (child_on_path lam b j Dj Nj) as (c & C1 & C2).
      exists c. split; [apply in_seq; split; [lia|apply nth_error_Some; congruence]|]. split; auto.
    + intros j Hj. apply Vb. intros (i & _ & X1 & X2). apply Hj. split.
      * eapply descends_trans; eauto. eapply desc_step; eauto. constructor.
      * intros ->. eapply child_not_ancestor; eauto.
Qed.

Variable r0 : nat.
Hypothesis Hr0 : nth_error lam r0 = Some (-1) /\ D r0 a.

Definition excl (e : option nat) (j : nat) : Prop := match e with Some c => D c j | None => False end.

(** Upwards from an ancestor [b] of [a], coming from its child [e] on the path (or starting at [a]). *)
Lemma connections_up : forall b e fuel nl,
  D b a ->
  match e with Some c => nth_error lam c = Some (Z.of_nat b) /\ D c a | None => b = a end ->
  (n + b + 1 <= fuel)%nat ->
  (forall j, D r0 j -> j <> b -> ~ excl e j -> dgetn nl j = None) ->
  exists nl', connections fuel lam b e nl = Ok nl' /\
    visited tgt (fun j => D r0 j /\ j <> b /\ ~ excl e j) nl nl'.
Proof.
  intros b. induction b as [b IH] using (well_founded_induction lt_wf). intros e fuel nl Dba He Hf Hn.
  assert (Hb : (b < n)%nat) by (pose proof (topo_desc_le _ _ _ T Dba); lia).
  destruct fuel as [|k]; [lia|].
  assert (Drb : D r0 b).
  { destruct Hr0 as [R1 R2]. destruct (descends_comparable lam _ _ _ R2 Dba) as [X|X]; auto.
    apply root_minimal in X; auto. subst. constructor. }
  destruct (nth_error lam b) as [pb|] eqn:Epb; [|apply nth_error_None in Epb; lia].
  pose proof (T _ _ Epb) as Bpb.
  (* what is visited through neighbour i *)
  set (V := fun i j => (nth_error lam i = Some (Z.of_nat b) /\ e <> Some i /\ D i j) \/
                       (pb = Z.of_nat i /\ D r0 j /\ ~ D b j)).
  assert (Edec : forall c, e = Some c \/ e <> Some c).
  { intros c. destruct e as [x|]; [destruct (Nat.eq_dec x c); [left|right]; congruence|right; discriminate]. }
  assert (Vdec : forall i j, V i j \/ ~ V i j).
  { intros i j. unfold V. destruct (descends_dec lam T i j), (descends_dec lam T r0 j), (descends_dec lam T b j), (Z.eq_dec pb (Z.of_nat i)), (Edec i);
     destruct (nth_error lam i) as [z|] eqn:Ez; try destruct (Z.eq_dec z (Z.of_nat b)); subst; try tauto; try (right; intuition congruence). }
  assert (Childdown : forall i, nth_error lam i = Some (Z.of_nat b) -> e <> Some i -> ~ D i a).
  { intros i Hi Ne X. destruct e as [c|].
    - destruct He as [He1 He2]. apply Ne. f_equal. eapply siblings_disjoint; eauto.
    - subst. eapply child_not_ancestor; eauto. }
  assert (Dbi : forall i, nth_error lam i = Some (Z.of_nat b) -> D b i) by (intros; eapply desc_step; eauto; constructor).
  assert (Vsub : forall i j, V i j -> D r0 j /\ j <> b /\ ~ excl e j).
  { intros i j [(X1 & X2 & X3)|(X1 & X2 & X3)].
    - split; [apply (descends_trans lam r0 b j Drb), (descends_trans lam b i j); auto|]. split.
      + intros ->. eapply child_not_ancestor; eauto.
      + destruct e as [c|]; simpl; auto. destruct He as [He1 He2]. intros X. apply X2. f_equal. symmetry. eapply siblings_disjoint; eauto.
    - split; auto. split; [intros ->; apply X3; constructor|]. destruct e as [c|]; simpl; auto.
      destruct He as [He1 He2]. intros X. apply X3. apply (descends_trans lam b c j); auto. }
  destruct (fold_visit tgt (step k b e) V Vdec (seq 0 n) nl) as (nl' & E & Va & Vb).
  - apply seq_NoDup.
  - intros i nl0 Hi Hv. apply in_seq in Hi. unfold step.
    destruct (nth_error lam i) as [li|] eqn:El; [|apply nth_error_None in El; lia].
    assert (SK : (match e with Some e0 => (i =? e0)%nat | None => false end) = true <-> e = Some i).
    { destruct e as [c|]; [rewrite Nat.eqb_eq; split; congruence|split; discriminate]. }
    destruct (match e with Some e0 => (i =? e0)%nat | None => false end).
    { apply proj1 in SK. specialize (SK eq_refl). subst e. destruct He as [He1 He2].
      exists nl0. split; auto. split; auto. intros j [(X1 & X2 & X3)|(X1 & X2 & X3)]; [congruence|].
      pose proof (T _ _ He1). subst pb. lia. }
    assert (Ne : e <> Some i) by (intros X; apply SK in X; discriminate). clear SK.
    rewrite (py_get_nat _ _ _ El), (py_get_nat _ _ _ Epb). cbn [bind].
    destruct (Z.eqb_spec li (Z.of_nat b)) as [->|Nl].
    + (* a child *)
      cbn [orb]. rewrite (dmem_false nl0 i) by (apply Hv; left; repeat split; auto; constructor). cbn [negb assert_ bind].
      assert (Hbi : (b < i)%nat) by (pose proof (T _ _ El); lia).
      destruct (connections_down k i b (dset Nat.eqb nl0 i (Z.of_nat b))) as (nl1 & E1 & V1a & V1b); auto; try lia.
      { intros j Dj Nj. rewrite dset_other by auto. apply Hv. left. auto. }
      assert (NB : forall j, V i j <-> D i j).
      { intros j. split; [intros [(_ & _ & X)|(X & _)]; auto; subst pb; lia|intros X; left; auto]. }
      exists nl1. split; auto. split.
      * intros j Hj. apply NB in Hj. destruct (Nat.eq_dec i j) as [<-|N].
        -- rewrite V1b by tauto. rewrite dset_same. f_equal. symmetry. apply tgt_down; auto.
        -- apply V1a. auto.
      * intros j Hj. rewrite NB in Hj. assert (i <> j) by (intros <-; apply Hj; constructor).
        rewrite V1b; [apply dset_other; auto|]. tauto.
    + destruct (Z.eqb_spec pb (Z.of_nat i)) as [->|Np].
      * (* the parent *)
        cbn [orb]. assert (Hib : (i < b)%nat) by lia.
        assert (Dib : D i b) by (eapply desc_step; eauto; constructor).
        assert (Dri : D r0 i).
        { eapply descends_parent; eauto. intros ->. destruct Hr0 as [R1 _]. rewrite R1 in Epb. assert (-1 = Z.of_nat i) by congruence. lia. }
        assert (Nbi : ~ D b i) by (eapply child_not_ancestor; eauto).
        rewrite (dmem_false nl0 i) by (apply Hv; right; auto). cbn [negb assert_ bind].
        destruct (IH i Hib (Some b) k (dset Nat.eqb nl0 i (Z.of_nat b))) as (nl1 & E1 & V1a & V1b); auto; try lia.
        { eapply descends_trans; eauto. }
        { intros j Dj Nj Nx. rewrite dset_other by auto. apply Hv. right. simpl in Nx. auto. }
        assert (NB : forall j, V i j <-> D r0 j /\ ~ D b j).
        { intros j. split; [intros [(X & _)|(_ & X)]; auto; congruence|intros X; right; auto]. }
        exists nl1. split; auto. split.
        -- intros j Hj. apply NB in Hj. destruct Hj as [Hj1 Hj2]. destruct (Nat.eq_dec i j) as [<-|N].
           ++ rewrite V1b by tauto. rewrite dset_same. f_equal. symmetry. apply tgt_up; auto.
              intros ->. apply Nbi. auto.
           ++ apply V1a. simpl. auto.
        -- intros j Hj. rewrite NB in Hj. assert (j <> i) by (intros ->; apply Hj; auto).
           rewrite V1b; [apply dset_other; auto|]. simpl. tauto.
      * cbn [orb]. exists nl0. split; auto. split; auto. intros j [(X & _)|(X & _)]; congruence.
  - intros i i' j Hi Hi' N [(X1 & X2 & X3)|(X1 & X2 & X3)] [(Y1 & Y2 & Y3)|(Y1 & Y2 & Y3)].
    + apply N. eapply siblings_disjoint; eauto.
    + apply Y3. apply (descends_trans lam b i j); auto.
    + apply X3. apply (descends_trans lam b i' j); auto.
    + apply N. lia.
  - intros i j Hi Hv. apply Vsub in Hv. apply Hn; tauto.
  - exists nl'. split; [exact E|]. split.
    + intros j (Dj & Nj & Nx). apply Va. destruct (descends_dec lam T b j) as [X|X].
      * destruct (child_on_path lam b j X) as (c & C1 & C2); [auto|].
        exists c. split; [apply in_seq; split; [lia|apply nth_error_Some; congruence]|]. left. split; auto. split; auto.
        intros ->. apply Nx. simpl. auto.
      * destruct (Z.eq_dec pb (-1)) as [->|Np].
        { exfalso. apply X. assert (r0 = b) by (eapply root_minimal; eauto). subst. auto. }
        exists (Z.to_nat pb). split; [apply in_seq; lia|]. right. rewrite Z2Nat.id by lia. auto.
    + intros j Hj. apply Vb. intros (i & _ & Hv). apply Hj. eapply Vsub; eauto.
Qed.
End Reroot.

(** The target function. *)
Definition tgt_of (lam : list Z) (a i : nat) : Z :=
  match find (fun c => match nth_error lam c with Some p => (p =? Z.of_nat i) | None => false end
                       && memZ (Z.of_nat a) (find_subsystem_indices lam c)) (seq 0 (length lam)) with
  | Some c => Z.of_nat c
  | None => match nth_error lam i with Some p => p | None => -1 end
  end.

Lemma mem_desc lam c a : topo lam -> (c < length lam)%nat -> (a < length lam)%nat ->
  (memZ (Z.of_nat a) (find_subsystem_indices lam c) = true <-> descends lam c a).
Proof.
  intros T Hc Ha. rewrite memZ_In, find_subsystem_indices_spec by auto. split.
  - intros (i & E & _ & X). apply Nat2Z.inj in E. now subst.
  - intros X. exists a. auto.
Qed.

Lemma tgt_of_up lam a i c : topo lam -> (a < length lam)%nat ->
  nth_error lam c = Some (Z.of_nat i) -> descends lam c a -> tgt_of lam a i = Z.of_nat c.
Proof.
  intros T Ha Hc Dc. unfold tgt_of.
  assert (Lc : (c < length lam)%nat) by (apply nth_error_Some; congruence).
  destruct (find _ _) as [c'|] eqn:E.
  - apply find_some in E. destruct E as [I E]. apply in_seq in I. apply andb_true_iff in E. destruct E as [E1 E2].
    destruct (nth_error lam c') as [p|] eqn:Ep; [|discriminate]. apply Z.eqb_eq in E1. subst p.
    apply mem_desc in E2; auto; [|lia]. f_equal. eapply siblings_disjoint; eauto.
  - exfalso. assert (X := find_none _ _ E c ltac:(apply in_seq; lia)). cbv beta in X. rewrite Hc, Z.eqb_refl in X.
    cbn [andb] in X. apply (mem_desc lam c a T Lc Ha) in Dc. congruence.
Qed.

Lemma tgt_of_down lam a i p : topo lam -> (a < length lam)%nat ->
  ~ descends lam i a -> nth_error lam i = Some p -> tgt_of lam a i = p.
Proof.
  intros T Ha ND Hp. unfold tgt_of. destruct (find _ _) as [c|] eqn:E; [|now rewrite Hp].
  apply find_some in E. destruct E as [I E]. apply in_seq in I. apply andb_true_iff in E. destruct E as [E1 E2].
  destruct (nth_error lam c) as [q|] eqn:Eq; [|discriminate]. apply Z.eqb_eq in E1. subst q.
  apply mem_desc in E2; auto; [|lia]. exfalso. apply ND. eapply descends_trans; eauto. eapply desc_step; eauto. constructor.
Qed.

Lemma mapM_all {A B} (f : A -> result B) (g : A -> B) l :
  (forall x, In x l -> f x = Ok (g x)) -> mapM f l = Ok (map g l).
Proof.
  induction l as [|x l IH]; intros H; simpl; auto. rewrite H by now left. rewrite IH; auto. intros; apply H; now right.
Qed.

Theorem autodetermine_spec lam a : topo lam -> (a < length lam)%nat ->
  (connected lam -> exists np, autodetermine_new_parents lam a = Ok np /\ rerooted lam a np) /\
  (~ connected lam -> autodetermine_new_parents lam a = Err EKey).
Proof.
  intros T Ha. destruct (root_above lam T a Ha) as (r0 & R1 & R2).
  destruct (connections_up lam T a Ha (tgt_of lam a)) with (r0 := r0) (b := a) (e := @None nat)
    (fuel := S (2 * length lam)) (nl := [(a, -1)]) as (nl & E & Va & Vb); auto.
  - intros i c _. apply tgt_of_up; auto.
  - intros i p. apply tgt_of_down; auto.
  - constructor.
  - lia.
  - intros j _ Nj _. simpl. destruct (Nat.eqb_spec j a); [congruence|auto].
  - assert (Ea : dgetn nl a = Some (-1)).
    { rewrite Vb by tauto. simpl. now rewrite Nat.eqb_refl. }
    unfold autodetermine_new_parents. rewrite E. cbn [bind]. split.
    + intros [r Hr].
      assert (r = r0) by (apply (root_minimal lam r0); auto; apply Hr; apply nth_error_Some; congruence). subst r.
      exists (map (fun i => if (i =? a)%nat then -1 else tgt_of lam a i) (seq 0 (length lam))). split.
      * apply mapM_all. intros i Hi. apply in_seq in Hi. unfold dgetE.
        destruct (Nat.eqb_spec i a) as [->|N]; [now rewrite Ea|]. rewrite Va; auto. split; auto. apply Hr. lia.
      * split; [rewrite map_length, seq_length; auto|].
        assert (NP : forall i, (i < length lam)%nat -> i <> a ->
          nth_error (map (fun i => if (i =? a)%nat then -1 else tgt_of lam a i) (seq 0 (length lam))) i = Some (tgt_of lam a i)).
        { intros i Hi N. rewrite nth_error_map, nth_seq0 by auto. simpl. destruct (Nat.eqb_spec i a); congruence. }
        split; [rewrite nth_error_map, nth_seq0 by auto; simpl; now rewrite Nat.eqb_refl|].
        intros i Hi Ni. split.
        -- intros Di. destruct (child_on_path lam i a Di Ni) as (c & C1 & C2). exists c. split; auto. split; auto.
           rewrite NP by auto. f_equal. apply tgt_of_up; auto.
        -- intros Nd. rewrite NP by auto. destruct (nth_error lam i) as [p|] eqn:Ep; [|apply nth_error_None in Ep; lia].
           f_equal. apply tgt_of_down; auto.
    + intros NC.
      assert (X : exists j, (j < length lam)%nat /\ dgetn nl j = None).
      { assert (Y : ~ (forall j, In j (seq 0 (length lam)) -> descends lam r0 j)).
        { intros Y. apply NC. exists r0. intros i Hi. apply Y. apply in_seq. lia. }
        assert (Z0 : exists j, In j (seq 0 (length lam)) /\ ~ descends lam r0 j).
        { clear - Y T. induction (seq 0 (length lam)) as [|x l IH]; [exfalso; apply Y; intros ? []|].
          destruct (descends_dec lam T r0 x) as [Dx|Dx]; [|exists x; split; auto; now left].
          destruct IH as (j & J1 & J2); [intros H; apply Y; intros j [<-|Hj]; auto|exists j; split; auto; now right]. }
        destruct Z0 as (j & J1 & J2). apply in_seq in J1. exists j. split; [lia|].
        rewrite Vb by tauto. simpl. destruct (Nat.eqb_spec j a); [congruence|auto]. }
      destruct X as (j & Hj & Ej).
      assert (In j (seq 0 (length lam))) as I by (apply in_seq; lia).
      revert I. generalize (seq 0 (length lam)). induction l as [|x l IH]; intros []; simpl.
      * subst. unfold dgetE at 1. rewrite Ej. reflexivity.
      * unfold dgetE at 1. destruct (dgetn nl x); auto. cbn [bind]. rewrite IH by auto. reflexivity.
Qed.
