(** * morph_system: permutation, parents, data, default poses. *)
From Coq Require Import String ZArith Lia Bool List Permutation.
From Verif Require Import Prelude M_Sys S_Sys S_Morph M_Compose M_Morph S_Morph2 P_Scan P_Sys P_Delete P_Tree P_Reroot P_Dfs.
Import ListNotations.
Local Open Scope Z_scope.

Lemma nth_error_nth_in {A} (l : list A) i d : (i < length l)%nat -> nth_error l i = Some (nth i l d).
Proof.
  revert i; induction l as [|x l IH]; intros [|i] H; simpl in *; try lia; auto. apply IH. lia.
Qed.
Lemma nth_of_nth_error {A} (l : list A) i d x : nth_error l i = Some x -> nth i l d = x.
Proof. intros H. apply nth_error_nth with (d := d) in H. exact H. Qed.

Lemma py_get_nth {A} (l : list A) i d : (i < length l)%nat -> py_get l (Z.of_nat i) = Ok (nth i l d).
Proof. intros H. apply py_get_nat. now apply nth_error_nth_in. Qed.

Lemma py_get_last {A} (l : list A) a : py_get (l ++ [a]) (-1) = Ok a.
Proof.
  unfold py_get. rewrite app_length. simpl length. change (-1 <? 0) with true. cbn match.
  replace (0 <=? -1 + Z.of_nat (length l + 1)) with true by (symmetry; apply Z.leb_le; lia).
  replace (-1 + Z.of_nat (length l + 1) <? Z.of_nat (length l + 1)) with true by (symmetry; apply Z.ltb_lt; lia).
  cbn [andb]. replace (Z.to_nat (-1 + Z.of_nat (length l + 1))) with (length l) by lia. rewrite nth_error_app2 by lia. now rewrite Nat.sub_diag.
Qed.

Lemma py_get_app1 {A} (l l' : list A) i d : (i < length l)%nat -> py_get (l ++ l') (Z.of_nat i) = Ok (nth i l d).
Proof. intros H. apply py_get_nat. rewrite nth_error_app1 by auto. now apply nth_error_nth_in. Qed.

Lemma mapM_err {A B} (f : A -> result B) e l : (forall x y, In x l -> f x = Err y -> y = e) ->
  (exists x, In x l /\ f x = Err e) -> mapM f l = Err e.
Proof.
  induction l as [|a l IH]; intros H1 (x & Hx & E); [destruct Hx|]. simpl.
  destruct (f a) as [b|y] eqn:Ea.
  - destruct Hx as [->|Hx]; [congruence|]. simpl. rewrite IH; [reflexivity| |eauto]. intros x' y' Hx' E'. apply (H1 x'); auto. now right.
  - simpl. f_equal. apply (H1 a); auto. now left.
Qed.

Lemma length_list_set {A} (l : list A) i a : length (list_set l i a) = length l.
Proof. revert i; induction l; intros [|i]; simpl; auto. Qed.
Lemma nth_list_set {A} (l : list A) i a j d : (i < length l)%nat ->
  nth j (list_set l i a) d = if (j =? i)%nat then a else nth j l d.
Proof.
  revert i j; induction l as [|x l IH]; intros [|i] [|j] H; simpl in *; try lia; auto. apply IH. lia.
Qed.

Section Indices.
Variables lam np : list Z.
Notation n := (length np).
Hypothesis HL : length lam = n.
Hypothesis T : topo lam.
Notation pi := (perm np).

Lemma hangs_range i : hangs np i -> exists p, nth_error np i = Some p /\ -1 <= p < Z.of_nat n.
Proof.
  intros H; inversion H as [? E|? p E Hp]; subst; eexists; (split; [eassumption|]); [lia|].
  apply hangs_lt in Hp. lia.
Qed.

Definition inv_at (i : nat) : nat := match indexZ (Z.of_nat i) (map Z.of_nat pi ++ [-1]) with Ok k => k | Err _ => 0%nat end.
Definition inv : list nat := map inv_at (seq 0 n).

Lemma inv_at_spec i m : hangs np i -> (inv_at i = m <-> nth_error pi m = Some i).
Proof.
  intros H. assert (I : In (Z.of_nat i) (map Z.of_nat pi ++ [-1])).
  { apply in_app_iff. left. apply in_map. now apply in_perm. }
  destruct (indexZ_In _ _ I) as [k Ek]. unfold inv_at. rewrite Ek.
  pose proof Ek as Ek'. apply indexZ_spec in Ek'. destruct Ek' as [E1 _].
  assert (E2 : nth_error pi k = Some i).
  { destruct (Nat.lt_ge_cases k (length pi)) as [L|L].
    - rewrite nth_error_app1 in E1 by (now rewrite map_length). rewrite nth_error_map in E1.
      destruct (nth_error pi k) as [x|]; [|discriminate]. simpl in E1. f_equal. apply Nat2Z.inj. congruence.
    - rewrite nth_error_app2 in E1 by (now rewrite map_length). rewrite map_length in E1.
      destruct (k - length pi)%nat as [|[|]]; try discriminate. simpl in E1. assert (-1 = Z.of_nat i) by congruence. lia. }
  split; [intros <-; auto|]. intros E3. symmetry. exact (NoDup_nth_error_inj _ _ _ _ (perm_NoDup np) E3 E2).
Qed.

Lemma inv_at_nth i : hangs np i -> nth_error pi (inv_at i) = Some i.
Proof. intros H. now apply (inv_at_spec i (inv_at i) H). Qed.
Lemma inv_at_eq i m : nth_error pi m = Some i -> inv_at i = m.
Proof. intros H. apply inv_at_spec; auto. apply in_perm. eapply nth_error_In; eauto. Qed.

Lemma length_inv : length inv = n.
Proof. unfold inv. now rewrite map_length, seq_length. Qed.

Lemma nth_inv i : (i < n)%nat -> nth i inv 0%nat = inv_at i.
Proof.
  intros H. unfold inv. rewrite (nth_indep _ 0%nat (inv_at 0)) by (now rewrite map_length, seq_length).
  rewrite map_nth, seq_nth; auto.
Qed.

(** Renumbering of a parent. *)
Definition ren (z : Z) : Z := if z =? -1 then -1 else Z.of_nat (inv_at (Z.to_nat z)).

Definition all_hang := forall i, (i < n)%nat -> hangs np i.

Lemma old_to_new_ok : all_hang -> old_to_new_indices np = Ok (map Z.of_nat inv ++ [-1]).
Proof.
  intros H. unfold old_to_new_indices. rewrite new_to_old_perm. cbn [bind].
  rewrite (mapM_all _ (fun i => Z.of_nat (inv_at i))).
  - cbn [bind]. unfold inv. now rewrite map_map.
  - intros i Hi. apply in_seq in Hi.
    assert (I : In (Z.of_nat i) (map Z.of_nat pi ++ [-1])).
    { apply in_app_iff. left. apply in_map. apply in_perm. apply H. lia. }
    destruct (indexZ_In _ _ I) as [k Ek]. unfold inv_at. rewrite Ek. reflexivity.
Qed.

Lemma old_to_new_err : ~ all_hang -> old_to_new_indices np = Err EValue.
Proof.
  intros H. unfold old_to_new_indices. rewrite new_to_old_perm. cbn [bind].
  assert (X : exists i, (i < n)%nat /\ ~ In i pi).
  { destruct (Forall_dec (fun i => In i pi)) with (l := seq 0 n) as [F|F].
    - intros x. apply in_dec, Nat.eq_dec.
    - exfalso. apply H. intros i Hi. apply in_perm. rewrite Forall_forall in F. apply F. apply in_seq. lia.
    - apply Exists_Forall_neg in F; [|intros x; destruct (in_dec Nat.eq_dec x pi); tauto].
      apply Exists_exists in F. destruct F as (i & Hi & Ni). apply in_seq in Hi. exists i. split; [lia|auto]. }
  rewrite (mapM_err _ EValue); auto.
  - intros i y _ E. destruct (indexZ (Z.of_nat i) _) eqn:Ei; [discriminate|]. simpl in E.
    destruct (in_dec Z.eq_dec (Z.of_nat i) (map Z.of_nat pi ++ [-1])) as [I|I].
    + destruct (indexZ_In _ _ I). congruence.
    + rewrite indexZ_not_In in Ei by auto. congruence.
  - destruct X as (i & Hi & Ni). exists i. split; [apply in_seq; lia|]. rewrite indexZ_not_In; auto.
    rewrite in_app_iff, in_map_iff. intros [(x & Ex & Hx)|[Ex|[]]]; [|lia]. apply Nat2Z.inj in Ex. now subst.
Qed.

Lemma ren_get z : all_hang -> -1 <= z < Z.of_nat n -> py_get (map Z.of_nat inv ++ [-1]) z = Ok (ren z).
Proof.
  intros H Hz. unfold ren. destruct (Z.eqb_spec z (-1)) as [->|Nz]; [apply py_get_last|].
  replace z with (Z.of_nat (Z.to_nat z)) at 1 by lia. 
  rewrite (py_get_app1 _ _ _ (Z.of_nat 0)) by (rewrite map_length, length_inv; lia).
  rewrite map_nth, nth_inv by lia. reflexivity.
Qed.

Definition node_of (i : nat) : Node :=
  mkNode i (Z.of_nat (inv_at i)) (nth i lam 0) (ren (nth i lam 0)) (nth i np 0) (ren (nth i np 0))
    (negb (nth i np 0 =? nth i lam 0)).

Lemma lam_range i : (i < n)%nat -> -1 <= nth i lam 0 < Z.of_nat i.
Proof. intros H. apply (T i). apply nth_error_nth_in. lia. Qed.

Lemma np_range i : all_hang -> (i < n)%nat -> -1 <= nth i np 0 < Z.of_nat n.
Proof.
  intros H Hi. destruct (hangs_range i (H i Hi)) as (p & E & R). now rewrite (nth_of_nth_error _ _ 0 _ E).
Qed.

Lemma identify_node_ok i : all_hang -> edges_kept lam np -> (i < n)%nat ->
  identify_node lam np (map Z.of_nat inv ++ [-1]) i = Ok (node_of i).
Proof.
  intros H K Hi. unfold identify_node.
  rewrite (py_get_nth lam i 0) by lia. rewrite (py_get_nth np i 0) by lia. cbn [bind].
  pose proof (lam_range i Hi) as R1. pose proof (np_range i H Hi) as R2.
  rewrite (ren_get (Z.of_nat i) H) by lia. cbn [bind]. rewrite (ren_get _ H) by lia. cbn [bind].
  rewrite (ren_get _ H) by lia. cbn [bind].
  assert (C : (if negb (nth i np 0 =? nth i lam 0) && negb (nth i np 0 =? -1)
              then do g <- py_get lam (nth i np 0); assert_ (g =? Z.of_nat i) else Ok tt) = Ok tt).
  { destruct (Z.eqb_spec (nth i np 0) (nth i lam 0)) as [|N1]; simpl; auto.
    destruct (Z.eqb_spec (nth i np 0) (-1)) as [|N2]; simpl; auto.
    set (p := Z.to_nat (nth i np 0)). assert (Ep : nth i np 0 = Z.of_nat p) by lia.
    destruct (K i p) as [E|E].
    - rewrite <- Ep. now apply nth_error_nth_in.
    - exfalso. apply N1. rewrite (nth_of_nth_error _ _ 0 _ E). auto.
    - rewrite Ep, (py_get_nat _ _ _ E). simpl. now rewrite Z.eqb_refl. }
  rewrite C. cbn [bind]. unfold node_of. do 2 f_equal.
  unfold ren. destruct (Z.eqb_spec (Z.of_nat i) (-1)); [lia|]. now rewrite Nat2Z.id.
Qed.

Lemma identify_node_err i : all_hang -> (i < n)%nat ->
  ~ (forall p, nth_error np i = Some (Z.of_nat p) ->
       nth_error lam i = Some (Z.of_nat p) \/ nth_error lam p = Some (Z.of_nat i)) ->
  identify_node lam np (map Z.of_nat inv ++ [-1]) i = Err EAssertion.
Proof.
  intros H Hi K. unfold identify_node.
  rewrite (py_get_nth lam i 0) by lia. rewrite (py_get_nth np i 0) by lia. cbn [bind].
  pose proof (lam_range i Hi) as R1. pose proof (np_range i H Hi) as R2.
  rewrite (ren_get (Z.of_nat i) H) by lia. cbn [bind]. rewrite (ren_get _ H) by lia. cbn [bind].
  rewrite (ren_get _ H) by lia. cbn [bind].
  destruct (Z.eqb_spec (nth i np 0) (nth i lam 0)) as [E1|N1].
  { exfalso. apply K. intros p Hp. left. apply (nth_of_nth_error _ _ 0) in Hp. rewrite <- Hp, E1. apply nth_error_nth_in. lia. }
  destruct (Z.eqb_spec (nth i np 0) (-1)) as [E2|N2].
  { exfalso. apply K. intros p Hp. apply (nth_of_nth_error _ _ 0) in Hp. lia. }
  cbn [negb andb].
  set (p := Z.to_nat (nth i np 0)). assert (Ep : nth i np 0 = Z.of_nat p) by lia.
  rewrite Ep, (py_get_nth lam p 0) by lia. cbn [bind].
  destruct (Z.eqb_spec (nth p lam 0) (Z.of_nat i)) as [E|E]; auto.
  exfalso. apply K. intros p' Hp'. right. apply (nth_of_nth_error _ _ 0) in Hp'.
  assert (p' = p) by lia. subst p'. rewrite <- E. apply nth_error_nth_in. lia.
Qed.

Lemma perm_lt i : In i pi -> (i < n)%nat.
Proof. intros H. apply in_perm in H. now apply hangs_lt in H. Qed.

Section Sys.
Context {K L G O : Type}.
Variable s : System K L G O.
Hypothesis Hlam : link_parents s = lam.

Lemma identify_ok : all_hang -> edges_kept lam np ->
  identify_system s np = Ok (map node_of (seq 0 n), map Z.of_nat pi, map (fun i => ren (nth i np 0)) pi).
Proof.
  intros H E. unfold identify_system, num_links. rewrite new_to_old_perm, old_to_new_ok by auto. cbn [bind].
  rewrite Hlam, HL. rewrite (mapM_all _ node_of) by (intros i Hi; apply in_seq in Hi; apply identify_node_ok; auto; lia).
  cbn [bind]. rewrite removelast_last.
  assert (E1 : mapM (py_get np) (map Z.of_nat pi) = Ok (map (fun i => nth i np 0) pi)).
  { rewrite (mapM_all _ (fun z => nth (Z.to_nat z) np 0)).
    - rewrite map_map. f_equal. apply map_ext. intros. now rewrite Nat2Z.id.
    - intros z Hz. apply in_map_iff in Hz. destruct Hz as (i & <- & Hi). rewrite Nat2Z.id. apply py_get_nth.
      now apply perm_lt. }
  rewrite E1. cbn [bind].
  assert (E2 : mapM (py_get (map Z.of_nat inv ++ [-1])) (map (fun i => nth i np 0) pi) = Ok (map (fun i => ren (nth i np 0)) pi)).
  { rewrite (mapM_all _ ren); [now rewrite map_map|]. intros z Hz. apply in_map_iff in Hz. destruct Hz as (i & <- & Hi).
    apply ren_get; auto. apply np_range; auto. now apply perm_lt. }
  rewrite E2. reflexivity.
Qed.

Lemma identify_hang_err : ~ all_hang -> identify_system s np = Err EValue.
Proof. intros H. unfold identify_system. now rewrite new_to_old_perm, old_to_new_err. Qed.

Lemma identify_edge_err : all_hang -> ~ edges_kept lam np -> identify_system s np = Err EAssertion.
Proof.
  intros H E. unfold identify_system, num_links. rewrite new_to_old_perm, old_to_new_ok by auto. cbn [bind].
  rewrite Hlam, HL.
  set (Q i := forall p, nth_error np i = Some (Z.of_nat p) ->
       nth_error lam i = Some (Z.of_nat p) \/ nth_error lam p = Some (Z.of_nat i)).
  assert (QD : forall i, {Q i} + {~ Q i}).
  { intros i. destruct (nth_error np i) as [z|] eqn:Ei.
    - destruct (Z_lt_dec z 0); [left; intros p; rewrite Ei; intros X; assert (z = Z.of_nat p) by congruence; lia|].
      assert (DZ : forall a b : option Z, {a = b} + {a <> b}) by (decide equality; apply Z.eq_dec).
      destruct (DZ (nth_error lam i) (Some z)) as [X|X];
        [left; intros p Hp; left; congruence|].
      destruct (DZ (nth_error lam (Z.to_nat z)) (Some (Z.of_nat i))) as [Y|Y].
      + left. intros p Hp. right. assert (z = Z.of_nat p) by congruence. subst z. now rewrite Nat2Z.id in Y.
      + right. intros F. assert (z = Z.of_nat (Z.to_nat z)) by lia.
        destruct (F (Z.to_nat z)) as [U|U]; congruence.
    - left. intros p. rewrite Ei. discriminate. }
  assert (X : exists i, (i < n)%nat /\ ~ Q i).
  { destruct (Forall_dec Q QD (seq 0 n)) as [F|F].
    - exfalso. apply E. intros i p Hp. rewrite Forall_forall in F. apply F; auto. apply in_seq.
      assert (i < n)%nat by (apply nth_error_Some; congruence). lia.
    - apply Exists_Forall_neg in F; [|intros x; destruct (QD x); tauto].
      apply Exists_exists in F. destruct F as (i & Hi & Ni). apply in_seq in Hi. exists i. split; [lia|auto]. }
  assert (M : mapM (identify_node lam np (map Z.of_nat inv ++ [-1])) (seq 0 n) = Err EAssertion).
  { apply mapM_err.
    - intros i y Hi Ey. apply in_seq in Hi. destruct (QD i) as [q|q].
      + exfalso. revert Ey. unfold identify_node.
        rewrite (py_get_nth lam i 0) by lia. rewrite (py_get_nth np i 0) by lia. cbn [bind].
        assert (Hi' : (i < n)%nat) by lia.
        pose proof (lam_range i Hi') as R1. pose proof (np_range i H Hi') as R2.
        rewrite (ren_get (Z.of_nat i) H) by lia. cbn [bind]. rewrite (ren_get _ H) by lia. cbn [bind].
        rewrite (ren_get _ H) by lia. cbn [bind].
        destruct (Z.eqb_spec (nth i np 0) (nth i lam 0)) as [|N1]; simpl; [discriminate|].
        destruct (Z.eqb_spec (nth i np 0) (-1)) as [|N2]; simpl; [discriminate|].
        set (p := Z.to_nat (nth i np 0)). assert (Ep : nth i np 0 = Z.of_nat p) by lia.
        destruct (q p) as [U|U].
        * rewrite <- Ep. now apply nth_error_nth_in.
        * exfalso. apply N1. rewrite (nth_of_nth_error _ _ 0 _ U). auto.
        * rewrite Ep, (py_get_nat _ _ _ U). simpl. rewrite Z.eqb_refl. discriminate.
      + rewrite identify_node_err in Ey; auto; [congruence|lia].
    - destruct X as (i & Hi & Ni). exists i. split; [apply in_seq; lia|]. apply identify_node_err; auto. }
  rewrite M. reflexivity.
Qed.
End Sys.

(** The new parent array. *)
Lemma same_parent_ren z : all_hang -> -1 <= z < Z.of_nat n -> same_parent pi z (ren z).
Proof.
  intros H Hz. unfold ren. destruct (Z.eqb_spec z (-1)) as [->|Nz]; [left; auto|right].
  exists (inv_at (Z.to_nat z)), (Z.to_nat z). split; [lia|]. split; auto. apply inv_at_spec; auto. apply H. lia.
Qed.

Lemma new_topo : all_hang -> topo (map (fun i => ren (nth i np 0)) pi).
Proof.
  intros H m p Hm. rewrite nth_error_map in Hm. destruct (nth_error pi m) as [i|] eqn:Ei; [|discriminate].
  simpl in Hm. assert (Ep : p = ren (nth i np 0)) by congruence. clear Hm. subst p.
  destruct (nth_error_split _ _ Ei) as (l1 & l2 & E & L).
  destruct (perm_order np l1 i l2 E) as [X|(q & X & Hq)].
  - rewrite (nth_of_nth_error _ _ 0 _ X). unfold ren. simpl. lia.
  - rewrite (nth_of_nth_error _ _ 0 _ X). unfold ren.
    destruct (Z.eqb_spec (Z.of_nat q) (-1)); [lia|]. rewrite Nat2Z.id.
    destruct (In_nth_error _ _ Hq) as [k Hk]. assert (Lk : (k < length l1)%nat) by (apply nth_error_Some; congruence).
    assert (Ek : nth_error pi k = Some q) by (rewrite E, nth_error_app1; auto).
    assert (inv_at q = k); [|lia]. apply inv_at_spec; auto. apply in_perm. eapply nth_error_In; eauto.
Qed.
End Indices.
