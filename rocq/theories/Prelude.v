(** * Shared vocabulary of the model: Python exceptions as values, Python list access. *)
From Coq Require Import String Ascii ZArith Lia Bool List.
Import ListNotations.
Local Open Scope Z_scope.

(** A Python call either returns a value or raises.  [OutOfFuel] is not a Python exception: it
    marks a model loop that was not given enough fuel, so no theorem can be true by truncation. *)
Inductive exn : Type :=
| EAssertion      (* AssertionError *)
| EValue          (* ValueError, e.g. list.index of a missing element *)
| EKey            (* KeyError *)
| EIndex          (* IndexError *)
| EType           (* TypeError *)
| EName           (* NameError / UnboundLocalError *)
| ENotImpl        (* NotImplementedError *)
| EInvalidSystem  (* ring.base.InvalidSystemError *)
| EOther          (* plain Exception *)
| EZeroDiv        (* ZeroDivisionError *)
| EStopIteration
| EOutOfFuel.

Inductive result (A : Type) : Type :=
| Ok (a : A)
| Err (e : exn).
Arguments Ok {A} a.
Arguments Err {A} e.

Definition bind {A B} (m : result A) (k : A -> result B) : result B :=
  match m with Ok a => k a | Err e => Err e end.

Notation "'do' x <- m ; k" := (bind m (fun x => k))
  (at level 200, x pattern, m at level 100, k at level 200, right associativity).

(** [assert c] raises AssertionError when [c] is false. *)
Definition assert_ (c : bool) : result unit := if c then Ok tt else Err EAssertion.

Definition is_ok {A} (r : result A) : bool := match r with Ok _ => true | Err _ => false end.

(** Sequencing of a fallible function over a list (a Python list comprehension). *)
Fixpoint mapM {A B} (f : A -> result B) (l : list A) : result (list B) :=
  match l with
  | [] => Ok []
  | x :: r => do y <- f x; do ys <- mapM f r; Ok (y :: ys)
  end.

(** A stateful loop over a list. *)
Fixpoint foldM {A S} (f : S -> A -> result S) (s : S) (l : list A) : result S :=
  match l with
  | [] => Ok s
  | x :: r => do s' <- f s x; foldM f s' r
  end.

(** [l[i]] of Python for an int [i]: negative indices count from the end. *)
Definition py_get {A} (l : list A) (i : Z) : result A :=
  let n := Z.of_nat (length l) in
  let j := if i <? 0 then i + n else i in
  if (0 <=? j) && (j <? n) then
    match nth_error l (Z.to_nat j) with Some a => Ok a | None => Err EIndex end
  else Err EIndex.

(** [x in l] for ints and strings. *)
Definition memZ (x : Z) (l : list Z) : bool := existsb (Z.eqb x) l.
Definition memS (x : string) (l : list string) : bool := existsb (String.eqb x) l.

(** [l.index(x)]: position of the first occurrence, ValueError when absent. *)
Fixpoint index_from {A} (eqb : A -> A -> bool) (x : A) (l : list A) (i : nat) : result nat :=
  match l with
  | [] => Err EValue
  | y :: r => if eqb x y then Ok i else index_from eqb x r (S i)
  end.
Definition indexS (x : string) (l : list string) : result nat := index_from String.eqb x l 0.
Definition indexZ (x : Z) (l : list Z) : result nat := index_from Z.eqb x l 0.

(** [l.count(x)] *)
Definition countS (x : string) (l : list string) : nat := length (filter (String.eqb x) l).

(** [enumerate(l)] *)
Fixpoint enum_from {A} (i : nat) (l : list A) : list (nat * A) :=
  match l with [] => [] | x :: r => (i, x) :: enum_from (S i) r end.
Definition enum {A} (l : list A) : list (nat * A) := enum_from 0 l.

(** Association lists standing for Python dicts (insertion ordered). *)
Section Dict.
  Context {K V : Type} (eqb : K -> K -> bool).
  Fixpoint dget (d : list (K * V)) (k : K) : option V :=
    match d with
    | [] => None
    | (k', v) :: r => if eqb k k' then Some v else dget r k
    end.
  (** [d[k] = v]: overwrite in place, otherwise append at the end. *)
  Fixpoint dset (d : list (K * V)) (k : K) (v : V) : list (K * V) :=
    match d with
    | [] => [(k, v)]
    | (k', v') :: r => if eqb k k' then (k', v) :: r else (k', v') :: dset r k v
    end.
  Definition dmem (d : list (K * V)) (k : K) : bool :=
    match dget d k with Some _ => true | None => false end.
  Definition dgetE (d : list (K * V)) (k : K) : result V :=
    match dget d k with Some v => Ok v | None => Err EKey end.
  (** [d.pop(k)] on the dict side *)
  Definition ddel (d : list (K * V)) (k : K) : list (K * V) :=
    filter (fun kv => negb (eqb k (fst kv))) d.
End Dict.

(** ** Elementary facts used everywhere *)

Lemma bind_Ok {A B} (m : result A) (k : A -> result B) b :
  bind m k = Ok b -> exists a, m = Ok a /\ k a = Ok b.
Proof. destruct m; simpl; intros H; [eauto | discriminate]. Qed.

Ltac inv_bind :=
  repeat match goal with
  | H : bind _ _ = Ok _ |- _ =>
      let a := fresh "a" in let Ha := fresh "Hb" in
      apply bind_Ok in H; destruct H as [a [Ha H]]
  | H : assert_ ?c = Ok _ |- _ =>
      let E := fresh "Ea" in
      unfold assert_ in H; destruct c eqn:E; [clear H | discriminate H]
  | H : Ok _ = Ok _ |- _ => injection H as H; try subst
  | H : Err _ = Ok _ |- _ => discriminate H
  end.

Lemma memZ_In x l : memZ x l = true <-> In x l.
Proof.
  unfold memZ. rewrite existsb_exists. split.
  - intros [y [H E]]. apply Z.eqb_eq in E. now subst.
  - intros H. exists x. split; auto. apply Z.eqb_refl.
Qed.

Lemma memS_In x l : memS x l = true <-> In x l.
Proof.
  unfold memS. rewrite existsb_exists. split.
  - intros [y [H E]]. apply String.eqb_eq in E. now subst.
  - intros H. exists x. split; auto. apply String.eqb_refl.
Qed.

Lemma memZ_false x l : memZ x l = false <-> ~ In x l.
Proof. rewrite <- memZ_In. destruct (memZ x l); split; congruence. Qed.

Lemma memS_false x l : memS x l = false <-> ~ In x l.
Proof. rewrite <- memS_In. destruct (memS x l); split; congruence. Qed.

Lemma index_from_spec {A} (eqb : A -> A -> bool) (Heq : forall a b, eqb a b = true <-> a = b) x :
  forall l k i, index_from eqb x l k = Ok i <->
    (exists j, i = (k + j)%nat /\ nth_error l j = Some x /\
               forall j', (j' < j)%nat -> nth_error l j' <> Some x).
Proof.
  induction l as [|y r IH]; intros k i; simpl.
  - split; [discriminate|]. intros (j & _ & H & _). destruct j; discriminate.
  - destruct (eqb x y) eqn:E.
    + apply Heq in E. subst y. split.
      * intros H; inversion H; subst. exists 0%nat. repeat split; auto; intros; lia.
      * intros (j & -> & H & Hlt). destruct j; [f_equal; lia|].
        exfalso. apply (Hlt 0%nat); [lia|reflexivity].
    + rewrite IH. split.
      * intros (j & -> & H & Hlt). exists (S j). repeat split; [lia|auto|].
        intros [|j'] Hj; simpl; [|apply Hlt; lia].
        intros E'; injection E' as ->. assert (eqb x x = true) by now apply Heq. congruence.
      * intros (j & -> & H & Hlt). destruct j as [|j].
        { simpl in H. injection H as ->. assert (eqb x x = true) by now apply Heq. congruence. }
        exists j. repeat split; [lia|auto|]. intros j' Hj. apply (Hlt (S j')). lia.
Qed.

Lemma indexS_spec x l i :
  indexS x l = Ok i <-> nth_error l i = Some x /\ forall j, (j < i)%nat -> nth_error l j <> Some x.
Proof.
  unfold indexS. rewrite (index_from_spec String.eqb String.eqb_eq).
  split; [intros (j & -> & H)|intros H; exists i]; auto.
Qed.

Lemma indexZ_spec x l i :
  indexZ x l = Ok i <-> nth_error l i = Some x /\ forall j, (j < i)%nat -> nth_error l j <> Some x.
Proof.
  unfold indexZ. rewrite (index_from_spec Z.eqb Z.eqb_eq).
  split; [intros (j & -> & H)|intros H; exists i]; auto.
Qed.

Lemma index_from_In {A} (eqb : A -> A -> bool) (Heq : forall a b, eqb a b = true <-> a = b) x l :
  forall k, In x l -> exists i, index_from eqb x l k = Ok i.
Proof.
  induction l as [|y r IH]; intros k; simpl; [tauto|].
  intros [->|H]; destruct (eqb x _) eqn:E; eauto.
  assert (eqb x x = true) by now apply Heq. congruence.
Qed.

Lemma indexS_In x l : In x l -> exists i, indexS x l = Ok i.
Proof. apply (index_from_In String.eqb String.eqb_eq). Qed.
Lemma indexZ_In x l : In x l -> exists i, indexZ x l = Ok i.
Proof. apply (index_from_In Z.eqb Z.eqb_eq). Qed.

Lemma indexS_not_In x l : ~ In x l -> indexS x l = Err EValue.
Proof.
  unfold indexS. generalize 0%nat. induction l as [|y r IH]; intros k H; simpl; auto.
  destruct (String.eqb x y) eqn:E.
  - apply String.eqb_eq in E. subst. exfalso. apply H. now left.
  - apply IH. intros H'. apply H. now right.
Qed.

Lemma indexZ_not_In x l : ~ In x l -> indexZ x l = Err EValue.
Proof.
  unfold indexZ. generalize 0%nat. induction l as [|y r IH]; intros k H; simpl; auto.
  destruct (Z.eqb x y) eqn:E.
  - apply Z.eqb_eq in E. subst. exfalso. apply H. now left.
  - apply IH. intros H'. apply H. now right.
Qed.

Lemma NoDup_nth_error_inj {A} (l : list A) i j x :
  NoDup l -> nth_error l i = Some x -> nth_error l j = Some x -> i = j.
Proof.
  intros H Hi Hj. rewrite NoDup_nth_error in H. apply H.
  - apply nth_error_Some. congruence.
  - congruence.
Qed.

Lemma indexS_NoDup x l i : NoDup l -> (indexS x l = Ok i <-> nth_error l i = Some x).
Proof.
  intros ND. rewrite indexS_spec. split; [tauto|]. intros H. split; auto.
  intros j Hj Hj'. pose proof (NoDup_nth_error_inj l i j x ND H Hj'). lia.
Qed.

Lemma indexZ_NoDup x l i : NoDup l -> (indexZ x l = Ok i <-> nth_error l i = Some x).
Proof.
  intros ND. rewrite indexZ_spec. split; [tauto|]. intros H. split; auto.
  intros j Hj Hj'. pose proof (NoDup_nth_error_inj l i j x ND H Hj'). lia.
Qed.

Lemma length_enum_from {A} (l : list A) i : length (enum_from i l) = length l.
Proof. revert i; induction l; simpl; auto. Qed.

Lemma nth_error_enum_from {A} (l : list A) k i :
  nth_error (enum_from k l) i = option_map (fun a => ((k + i)%nat, a)) (nth_error l i).
Proof.
  revert k i; induction l as [|x r IH]; intros k [|i]; simpl; auto.
  - now rewrite Nat.add_0_r.
  - rewrite IH. destruct (nth_error r i); simpl; auto. do 2 f_equal. lia.
Qed.

Lemma enum_from_app {A} (l1 l2 : list A) k :
  enum_from k (l1 ++ l2) = enum_from k l1 ++ enum_from (k + length l1) l2.
Proof.
  revert k; induction l1 as [|x r IH]; intros k; simpl; [now rewrite Nat.add_0_r|].
  rewrite IH. do 3 f_equal. lia.
Qed.

Lemma mapM_Ok_length {A B} (f : A -> result B) l l' : mapM f l = Ok l' -> length l' = length l.
Proof.
  revert l'; induction l as [|x r IH]; simpl; intros l' H; inv_bind; auto.
  simpl. f_equal. eauto.
Qed.

Lemma mapM_Ok_iff {A B} (f : A -> result B) l l' :
  mapM f l = Ok l' <-> Forall2 (fun a b => f a = Ok b) l l'.
Proof.
  revert l'; induction l as [|x r IH]; simpl; intros l'.
  - split; intros H; [injection H as <-; constructor | inversion H; auto].
  - split.
    + intros H; inv_bind. constructor; auto. now apply IH.
    + intros H; inversion H; subst. rewrite H2. simpl.
      apply IH in H4. now rewrite H4.
Qed.

Lemma mapM_nth {A B} (f : A -> result B) l l' i a :
  mapM f l = Ok l' -> nth_error l i = Some a -> exists b, nth_error l' i = Some b /\ f a = Ok b.
Proof.
  rewrite mapM_Ok_iff. intros H; revert i; induction H; intros [|i] E; simpl in *; try discriminate.
  - injection E as <-. eauto.
  - eauto.
Qed.

Lemma mapM_app {A B} (f : A -> result B) l1 l2 :
  mapM f (l1 ++ l2) = (do a <- mapM f l1; do b <- mapM f l2; Ok (a ++ b)).
Proof.
  induction l1 as [|x r IH]; simpl.
  - destruct (mapM f l2); auto.
  - destruct (f x); simpl; auto. rewrite IH. destruct (mapM f r); simpl; auto.
    destruct (mapM f l2); simpl; auto.
Qed.

Lemma mapM_ext {A B} (f g : A -> result B) l :
  (forall a, In a l -> f a = g a) -> mapM f l = mapM g l.
Proof.
  induction l as [|x r IH]; simpl; intros H; auto.
  rewrite H by auto. rewrite IH by auto. reflexivity.
Qed.

Lemma mapM_total {A B} (f : A -> B) l : mapM (fun a => Ok (f a)) l = Ok (map f l).
Proof. induction l; simpl; auto. now rewrite IHl. Qed.

Lemma py_get_nonneg {A} (l : list A) i a :
  0 <= i -> (py_get l i = Ok a <-> nth_error l (Z.to_nat i) = Some a).
Proof.
  intros Hi. unfold py_get. replace (i <? 0) with false by (symmetry; apply Z.ltb_ge; lia).
  replace (0 <=? i) with true by (symmetry; apply Z.leb_le; lia). simpl.
  destruct (i <? Z.of_nat (length l)) eqn:E.
  - destruct (nth_error l (Z.to_nat i)); split; congruence.
  - apply Z.ltb_ge in E. split; [discriminate|]. intros H.
    assert (Z.to_nat i < length l)%nat by (apply nth_error_Some; congruence). lia.
Qed.

Lemma dget_dset_same {K V} (eqb : K -> K -> bool) (Heq : forall a b, eqb a b = true <-> a = b)
      (d : list (K * V)) k v : dget eqb (dset eqb d k v) k = Some v.
Proof.
  induction d as [|[k' v'] r IH]; simpl.
  - replace (eqb k k) with true; auto. symmetry. now apply Heq.
  - destruct (eqb k k') eqn:E; simpl; rewrite E; auto.
Qed.

Lemma dget_dset_other {K V} (eqb : K -> K -> bool) (Heq : forall a b, eqb a b = true <-> a = b)
      (d : list (K * V)) k k2 v : k2 <> k -> dget eqb (dset eqb d k v) k2 = dget eqb d k2.
Proof.
  intros N. assert (F : eqb k2 k = false).
  { destruct (eqb k2 k) eqn:E; auto. apply Heq in E. congruence. }
  induction d as [|[k' v'] r IH]; simpl; auto.
  - now rewrite F.
  - destruct (eqb k k') eqn:E; simpl.
    + apply Heq in E. subst k'. now rewrite F.
    + destruct (eqb k2 k'); auto.
Qed.

Lemma dget_ddel_same {K V} (eqb : K -> K -> bool) (d : list (K * V)) k :
  dget eqb (ddel eqb d k) k = None.
Proof.
  induction d as [|[k' v'] r IH]; simpl; auto.
  destruct (eqb k k') eqn:E; simpl; auto. now rewrite E.
Qed.

Lemma dget_ddel_other {K V} (eqb : K -> K -> bool) (Heq : forall a b, eqb a b = true <-> a = b)
      (d : list (K * V)) k k2 : k2 <> k -> dget eqb (ddel eqb d k) k2 = dget eqb d k2.
Proof.
  intros N. induction d as [|[k' v'] r IH]; simpl; auto.
  destruct (eqb k k') eqn:E; simpl.
  - apply Heq in E. subst k'. destruct (eqb k2 k) eqn:F; auto. apply Heq in F. congruence.
  - destruct (eqb k2 k'); auto.
Qed.

Lemma forallb_Forall {A} (p : A -> bool) l : forallb p l = true <-> Forall (fun a => p a = true) l.
Proof. rewrite forallb_forall, Forall_forall. tauto. Qed.

Lemma Forall2_length {A B} (R : A -> B -> Prop) l l' : Forall2 R l l' -> length l = length l'.
Proof. induction 1; simpl; auto. Qed.

Lemma nth_error_ext {A} (l l' : list A) : (forall i, nth_error l i = nth_error l' i) -> l = l'.
Proof.
  revert l'; induction l as [|x r IH]; intros [|y r'] H; auto.
  - specialize (H 0%nat). discriminate.
  - specialize (H 0%nat). discriminate.
  - f_equal.
    + specialize (H 0%nat). now injection H.
    + apply IH. intros i. apply (H (S i)).
Qed.

Lemma skipn_skipn {A} (l : list A) i j : skipn i (skipn j l) = skipn (j + i) l.
Proof.
  revert l; induction j as [|j IH]; intros l; simpl; auto.
  destruct l; simpl; [now rewrite skipn_nil | apply IH].
Qed.

Lemma Forall2_nth {A B} (R : A -> B -> Prop) l l' i a b :
  Forall2 R l l' -> nth_error l i = Some a -> nth_error l' i = Some b -> R a b.
Proof.
  intros F. revert i. induction F; intros [|i] Ha Hb; simpl in *; try discriminate.
  - congruence.
  - eauto.
Qed.

Lemma Forall2_nth_l {A B} (R : A -> B -> Prop) l l' i a :
  Forall2 R l l' -> nth_error l i = Some a -> exists b, nth_error l' i = Some b /\ R a b.
Proof.
  intros F. revert i. induction F; intros [|i] Ha; simpl in *; try discriminate.
  - injection Ha as <-. eauto.
  - eauto.
Qed.

Lemma Forall2_nth_r {A B} (R : A -> B -> Prop) l l' i b :
  Forall2 R l l' -> nth_error l' i = Some b -> exists a, nth_error l i = Some a /\ R a b.
Proof.
  intros F. revert i. induction F; intros [|i] Ha; simpl in *; try discriminate.
  - injection Ha as <-. eauto.
  - eauto.
Qed.

Lemma Forall2_of_nth {A B} (R : A -> B -> Prop) l l' :
  length l = length l' ->
  (forall i a b, nth_error l i = Some a -> nth_error l' i = Some b -> R a b) -> Forall2 R l l'.
Proof.
  revert l'. induction l as [|x l IH]; intros [|y l'] Hl H; simpl in *; try discriminate; constructor.
  - apply (H 0%nat); auto.
  - apply IH; [lia|]. intros i a b Ha Hb. apply (H (S i)); auto.
Qed.
