(** * C51: the network respects the graph. *)
From Coq Require Import ZArith Lia Bool List Permutation.
From Verif Require Import Prelude M_Ring C_Lookup.
Import ListNotations.
Local Open Scope nat_scope.

Section C51.
Context {X H St Y M CI CO : Type}.
Variables (mzero : M) (madd : M -> M -> M).
Variable hidden : St -> H.
Variable send_msg : H -> M.
Variable cat : X -> M -> M -> CI.
Variable inner_cell : CI -> St -> CO * St.
Variable send_output : CO -> Y.
Notation cell := (cell_apply mzero madd hidden send_msg cat inner_cell send_output).
Notation unroll := (unroll mzero madd hidden send_msg cat inner_cell send_output).
Notation batched := (ring_batched mzero madd hidden send_msg cat inner_cell send_output).

(** Addition of messages: zero is neutral; the order of summation does not matter (real vectors). *)
Hypothesis madd_0_l : forall m, madd mzero m = m.
Hypothesis madd_0_r : forall m, madd m mzero = m.
Hypothesis madd_assoc : forall a b c, madd a (madd b c) = madd (madd a b) c.
Hypothesis madd_comm : forall a b, madd a b = madd b a.

(** ** Specification *)
Definition message (s : St) : M := send_msg (hidden s).
(** Every parent is -1 (the world) or one of the links. *)
Definition valid (lam : list Z) : Prop := Forall (fun p => -1 <= p < Z.of_nat (length lam))%Z lam.
(** The message from the parent: none from the world. *)
Definition parent_msg (prev : list St) (p : Z) (m : M) : Prop :=
  (p = -1 /\ m = mzero)%Z \/ (0 <= p)%Z /\ exists s, nth_error prev (Z.to_nat p) = Some s /\ m = message s.
(** The messages of the links whose parent is [i]. *)
Definition child_msgs (lam : list Z) (prev : list St) (i : nat) : list M :=
  map (fun ps => message (snd ps)) (filter (fun ps => (fst ps =? Z.of_nat i)%Z) (combine lam prev)).
Definition total (l : list M) : M := fold_right madd mzero l.
(** What one link computes in one step. *)
Definition link_step (lam : list Z) (inputs : list X) (prev : list St) (i : nat) (r : Y * St) : Prop :=
  exists p x s m, nth_error lam i = Some p /\ nth_error inputs i = Some x /\ nth_error prev i = Some s /\ parent_msg prev p m /\
    r = (let (o, s') := inner_cell (cat x m (total (child_msgs lam prev i))) s in (send_output o, s')).

Definition adjacent (lam : list Z) (i j : nat) : Prop :=
  nth_error lam i = Some (Z.of_nat j) \/ nth_error lam j = Some (Z.of_nat i).
(** [j] can be reached from [i] over at most [k] edges. *)
Fixpoint near (lam : list Z) (k i j : nat) : Prop :=
  match k with
  | 0 => i = j
  | S k' => near lam k' i j \/ exists m, near lam k' i m /\ adjacent lam m j
  end.
Definition same_at {A} (P : nat -> Prop) (l l' : list A) : Prop := forall j, P j -> nth_error l j = nth_error l' j.

(** A renumbering of the links. *)
Record renumbering (N : nat) (pi : nat -> nat) : Prop := {
  rn_range : forall i, i < N -> pi i < N;
  rn_inj : forall i j, i < N -> j < N -> pi i = pi j -> i = j }.
Definition renum (pi : nat -> nat) (p : Z) : Z := if (p <? 0)%Z then p else Z.of_nat (pi (Z.to_nat p)).
(** [l'] is [l] with every entry moved to its new number. *)
Definition moved {A} (N : nat) (pi : nat -> nat) (l l' : list A) : Prop :=
  length l = N /\ length l' = N /\ forall i, i < N -> nth_error l' (pi i) = nth_error l i.
Definition lam_moved (N : nat) (pi : nat -> nat) (lam lam' : list Z) : Prop := moved N pi (map (renum pi) lam) lam'.

(** ** Proofs *)
Lemma mailbox_total lam : forall prev i, mailbox mzero madd lam (map message prev) i = total (child_msgs lam prev i).
Proof.
  unfold mailbox, child_msgs, total, msum. induction lam as [|p lam IH]; intros prev i; [reflexivity|].
  destruct prev as [|s prev]; [reflexivity|]. cbn [map combine filter fst snd fold_right].
  destruct (p =? Z.of_nat i)%Z; cbn [map fold_right snd].
  - f_equal. apply IH.
  - rewrite madd_0_l. apply IH.
Qed.

Lemma jax_get_in {A} (l : list A) (i : nat) a : nth_error l i = Some a -> jax_get l (Z.of_nat i) = Ok a.
Proof.
  intros E. assert (i < length l) by (apply nth_error_Some; congruence). unfold jax_get. cbv zeta.
  replace (Z.of_nat i <? 0)%Z with false by (symmetry; apply Z.ltb_ge; lia).
  replace (Z.to_nat (Z.max 0 (Z.min (Z.of_nat i) (Z.of_nat (length l) - 1)))) with i by lia. now rewrite E.
Qed.
Lemma jax_get_last {A} (l : list A) a : jax_get (l ++ [a]) (-1) = Ok a.
Proof.
  unfold jax_get. cbv zeta. cbn [Z.ltb Z.compare]. rewrite app_length. cbn [length].
  replace (Z.to_nat _) with (length l) by lia. rewrite nth_error_app2, Nat.sub_diag by lia. reflexivity.
Qed.

Lemma enum_nth {A} (l : list A) i : nth_error (enum l) i = option_map (pair i) (nth_error l i).
Proof.
  unfold enum. assert (G : forall k i, nth_error (enum_from k l) i = option_map (pair (k + i)) (nth_error l i)).
  { induction l as [|x l IH]; intros k j; [destruct j; reflexivity|]. destruct j; cbn [enum_from nth_error].
    - cbn. now rewrite Nat.add_0_r.
    - rewrite IH. now replace (k + S j) with (S k + j) by lia. }
  apply G.
Qed.

Lemma combine_nth_error {A B} : forall (l : list A) (l' : list B) i a b, nth_error l i = Some a -> nth_error l' i = Some b -> nth_error (combine l l') i = Some (a, b).
Proof. induction l; intros [|b' l'] [|i] a0 b; cbn; try discriminate; intros E1 E2; try congruence. now apply IHl. Qed.

Lemma link_step_fun lam inputs prev i r r' : link_step lam inputs prev i r -> link_step lam inputs prev i r' -> r = r'.
Proof.
  intros (p & x & s & m & A & B & C & D & ->) (p' & x' & s' & m' & A' & B' & C' & D' & ->).
  assert (p = p') by congruence. assert (x = x') by congruence. assert (s = s') by congruence. subst p' x' s'.
  assert (m = m') as ->; [|reflexivity].
  destruct D as [[D ->]|(D & u & D1 & ->)], D' as [[D' ->]|(D' & u' & D1' & ->)]; try lia; congruence.
Qed.

(** C51.  One step: every link computes its output from its own input and state, the message of its parent and
    the sum of the messages of its children - and from nothing else. *)
Theorem C51_step lam inputs prev : valid lam -> length inputs = length lam -> length prev = length lam ->
  exists ys sts, cell lam inputs prev = Ok (ys, sts) /\ length ys = length lam /\ length sts = length lam /\
    forall i, i < length lam -> exists y s, nth_error ys i = Some y /\ nth_error sts i = Some s /\ link_step lam inputs prev i (y, s).
Proof.
  intros V LI LP. unfold cell_apply. rewrite LP, Nat.eqb_refl. cbn [negb].
  assert (CIs : forall ip, In ip (enum lam) -> exists ci, cell_input mzero madd cat lam inputs (map (fun s => send_msg (hidden s)) prev) (fst ip) (snd ip) = Ok ci /\
     exists x m, nth_error inputs (fst ip) = Some x /\ parent_msg prev (snd ip) m /\ ci = cat x m (total (child_msgs lam prev (fst ip)))).
  { intros [i p] Hi. apply enum_In in Hi. cbn [fst snd]. assert (Li : i < length lam) by (apply nth_error_Some; congruence).
    destruct (nth_error inputs i) as [x|] eqn:Ex; [|apply nth_error_None in Ex; lia].
    unfold cell_input. rewrite (jax_get_in _ _ _ Ex). cbn [bind]. change (fun s => send_msg (hidden s)) with message.
    unfold valid in V. rewrite Forall_forall in V. pose proof (V p (nth_error_In _ _ Hi)) as Vp.
    assert (PM : exists m, jax_get (map message prev ++ [mzero]) p = Ok m /\ parent_msg prev p m).
    { destruct (Z.eq_dec p (-1)) as [->|NE].
      - exists mzero. split; [apply jax_get_last|]. left. auto.
      - assert (Pp : (0 <= p)%Z) by lia. destruct (nth_error prev (Z.to_nat p)) as [s|] eqn:Es; [|apply nth_error_None in Es; lia].
        exists (message s). split.
        + replace p with (Z.of_nat (Z.to_nat p)) by lia. apply jax_get_in. rewrite nth_error_app1; [|rewrite map_length; lia]. now rewrite nth_error_map, Es.
        + right. split; auto. exists s. auto. }
    destruct PM as (m & -> & PM). cbn [bind]. eexists. split; [reflexivity|]. exists x, m. rewrite mailbox_total. auto. }
  destruct (mapM (fun ip => cell_input mzero madd cat lam inputs (map (fun s => send_msg (hidden s)) prev) (fst ip) (snd ip)) (enum lam)) as [cis|e] eqn:EM.
  - cbn [bind]. do 2 eexists. split; [reflexivity|]. pose proof (mapM_Ok_length _ _ _ EM) as LC.
    assert (LE : length (enum lam) = length lam) by (rewrite <- (map_length fst), enum_fst, seq_length; reflexivity).
    split; [now rewrite !map_length, combine_length, LC, LE, LP, Nat.min_id|]. split; [now rewrite !map_length, combine_length, LC, LE, LP, Nat.min_id|].
    intros i Hi. destruct (nth_error lam i) as [p|] eqn:Ep; [|apply nth_error_None in Ep; lia].
    assert (EE : nth_error (enum lam) i = Some (i, p)) by now rewrite enum_nth, Ep.
    destruct (Prelude.mapM_nth _ _ _ _ _ EM EE) as (ci & Eci & Fci).
    destruct (CIs (i, p) (nth_error_In _ _ EE)) as (ci' & Fci' & x & m & Ex & PM & Hci). cbn [fst snd] in *.
    assert (Ecc : ci = ci') by congruence. rewrite <- Ecc in Hci. destruct (nth_error prev i) as [s|] eqn:Es; [|apply nth_error_None in Es; lia].
    pose proof (combine_nth_error _ _ _ _ _ Eci Es) as EC.
    destruct (inner_cell ci s) as [o s'] eqn:Ein. exists (send_output o), s'.
    rewrite !nth_error_map, EC. cbn [option_map fst snd]. rewrite Ein. cbn [fst snd]. split; auto. split; auto.
    exists p, x, s, m. repeat (split; [assumption|]). rewrite <- Hci, Ein. reflexivity.
  - exfalso. clear - EM CIs. revert EM CIs. generalize (enum lam) as l. intros l. induction l as [|ip l IH]; cbn [mapM]; [discriminate|].
    intros EM CIs. destruct (CIs ip (or_introl eq_refl)) as (ci & E & _). rewrite E in EM. cbn [bind] in EM.
    destruct (mapM _ l) as [r|e'] eqn:E2; [discriminate|]. apply IH; auto. intros jp Hj. apply CIs. now right.
Qed.

Lemma child_same lam i : forall prev prev', length prev = length lam -> length prev' = length lam ->
  (forall j, nth_error lam j = Some (Z.of_nat i) -> nth_error prev j = nth_error prev' j) -> child_msgs lam prev i = child_msgs lam prev' i.
Proof.
  unfold child_msgs. induction lam as [|p lam IH]; intros prev prev' L L' E; [reflexivity|].
  destruct prev as [|s prev]; [discriminate|]. destruct prev' as [|s' prev']; [discriminate|]. cbn [combine filter fst].
  assert (T : map (fun ps => message (snd ps)) (filter (fun ps => (fst ps =? Z.of_nat i)%Z) (combine lam prev)) =
              map (fun ps => message (snd ps)) (filter (fun ps => (fst ps =? Z.of_nat i)%Z) (combine lam prev'))).
  { apply IH; [cbn in L; congruence|cbn in L'; congruence|]. intros j Hj. exact (E (S j) Hj). }
  destruct (Z.eqb_spec p (Z.of_nat i)) as [->|NE]; [|exact T]. cbn [map snd]. specialize (E 0 eq_refl). cbn in E. injection E as ->. now f_equal.
Qed.

(** C51.  Locality: inputs of other links and states of links that are not neighbours have no influence. *)
Theorem C51_local_step lam inputs inputs' prev prev' i r : valid lam -> length prev = length lam -> length prev' = length lam ->
  nth_error inputs i = nth_error inputs' i -> same_at (fun j => j = i \/ adjacent lam i j) prev prev' ->
  link_step lam inputs prev i r -> link_step lam inputs' prev' i r.
Proof.
  intros V L L' EI ES (p & x & s & m & A & B & C & D & ->). exists p, x, s, m. split; auto. split; [congruence|].
  split; [rewrite <- ES; auto|]. split.
  - destruct D as [D|(P & u & D & ->)]; [now left|]. right. split; auto. exists u. split; auto. rewrite <- ES; auto.
    right. left. rewrite A. f_equal. lia.
  - assert (E : child_msgs lam prev' i = child_msgs lam prev i); [|now rewrite E].
    symmetry. apply child_same; auto. intros j Hj. apply ES. right. right. exact Hj.
Qed.

Lemma near_S lam k i j : near lam k i j -> near lam (S k) i j.
Proof. cbn. auto. Qed.
Lemma near_adj lam k i m j : near lam k i m -> adjacent lam m j -> near lam (S k) i j.
Proof. cbn. intros A B. right. exists m. auto. Qed.
Lemma near_refl lam k i : near lam k i i.
Proof. induction k; cbn; auto. Qed.

(** C51.  Over time information travels at most one edge per step: the outputs of link [i] in the first [T] steps
    are the same for any two inputs and initial states that agree on the links within [T] edges of [i].  In
    particular links of other trees never matter. *)
Theorem C51_local lam i : valid lam -> i < length lam ->
  forall xs xs' st st', Forall (fun x => length x = length lam) xs -> Forall (fun x => length x = length lam) xs' ->
  length st = length lam -> length st' = length lam -> length xs = length xs' ->
  same_at (near lam (length xs) i) st st' -> Forall2 (same_at (near lam (length xs) i)) xs xs' ->
  exists ys s1 ys' s1', unroll lam xs st = Ok (ys, s1) /\ unroll lam xs' st' = Ok (ys', s1') /\
    Forall2 (fun y y' => nth_error y i = nth_error y' i) ys ys' /\ nth_error s1 i = nth_error s1' i.
Proof.
  intros V Hi. induction xs as [|x xs IH]; intros xs' st st' F F' L L' LX ES EX.
  - destruct xs'; [|discriminate]. cbn [M_Ring.unroll]. exists [], st, [], st'. split; auto. split; auto. split; [constructor|]. apply ES. apply near_refl.
  - destruct xs' as [|x' xs']; [discriminate|]. inversion F as [|? ? Lx Fx]; subst. inversion F' as [|? ? Lx' Fx']; subst. inversion EX as [|? ? ? ? Ex EX']; subst.
    cbn [length] in ES, EX', Ex. cbn [M_Ring.unroll].
    destruct (C51_step lam x st V Lx L) as (ys & s1 & E1 & Ly & Ls & P). destruct (C51_step lam x' st' V Lx' L') as (ys' & s1' & E1' & Ly' & Ls' & P').
    rewrite E1, E1'. cbn [bind snd fst].
    assert (Q : forall j, near lam (length xs) i j -> nth_error ys j = nth_error ys' j /\ nth_error s1 j = nth_error s1' j).
    { intros j Hj. destruct (Nat.lt_ge_cases j (length lam)) as [Lj|Lj].
      - destruct (P j Lj) as (y & s & A & B & C). destruct (P' j Lj) as (y' & s' & A' & B' & C').
        assert (C2 : link_step lam x' st' j (y, s)).
        { apply (C51_local_step lam x x' st st'); auto.
          - apply Ex. now apply near_S.
          - intros k [->|Hk]; apply ES; [now apply near_S|]. now apply (near_adj _ _ _ j). }
        pose proof (link_step_fun _ _ _ _ _ _ C2 C') as E. injection E as -> ->. split; congruence.
      - assert (N : forall A (l : list A), length l = length lam -> nth_error l j = None) by (intros; apply nth_error_None; lia).
        rewrite !N by auto. auto. }
    destruct (IH xs' s1 s1') as (zs & t1 & zs' & t1' & -> & -> & FZ & ET); auto.
    + intros j Hj. now apply Q.
    + revert EX'. generalize (length xs) as n. intros n EX'. clear - EX'. induction EX' as [|a b l l' Hab EX' IHF]; constructor; auto. intros j Hj. apply Hab. now apply near_S.
    + cbn [bind fst snd]. exists (ys :: zs), t1, (ys' :: zs'), t1'. split; auto. split; auto. split; auto. constructor; auto. apply Q. apply near_refl.
Qed.

(** C51.  Processing a recording piece by piece, passing the state on, is the same as processing it at once. *)
Theorem C51_online lam xs1 : forall xs2 st, unroll lam (xs1 ++ xs2) st =
  (do a <- unroll lam xs1 st; do b <- unroll lam xs2 (snd a); Ok (fst a ++ fst b, snd b)).
Proof.
  induction xs1 as [|x xs1 IH]; intros xs2 st; cbn [app M_Ring.unroll].
  - cbn [bind fst snd app]. destruct (unroll lam xs2 st) as [[a b]|e]; reflexivity.
  - destruct (cell lam x st) as [[y s1]|e]; [|reflexivity]. cbn [bind snd fst]. rewrite IH.
    destruct (unroll lam xs1 s1) as [[a b]|e]; [|reflexivity]. cbn [bind fst snd].
    destruct (unroll lam xs2 b) as [[c d]|e]; reflexivity.
Qed.

(** ** Renumbering *)
Lemma total_perm l l' : Permutation l l' -> total l = total l'.
Proof.
  induction 1; cbn [total fold_right] in *; auto.
  - unfold total in *. congruence.
  - rewrite !madd_assoc, (madd_comm y x). reflexivity.
  - congruence.
Qed.
Lemma moved_perm {A} N pi (l l' : list A) : renumbering N pi -> moved N pi l l' -> Permutation l' l.
Proof.
  intros [R I] (L & L' & E). apply Permutation_nth_error. split; [congruence|].
  exists (fun n => if n <? N then pi n else n). split.
  - intros a b. destruct (Nat.ltb_spec a N), (Nat.ltb_spec b N); intros Hab; auto.
    + pose proof (R a ltac:(auto)). lia.
    + pose proof (R b ltac:(auto)). lia.
  - intros n. destruct (Nat.ltb_spec n N) as [Hn|Hn]; [symmetry; now apply E|].
    assert (nth_error l n = None) as -> by (apply nth_error_None; lia). symmetry. apply nth_error_None. lia.
Qed.
Lemma renum_eq N pi p i : renumbering N pi -> (-1 <= p < Z.of_nat N)%Z -> i < N -> (renum pi p =? Z.of_nat (pi i))%Z = (p =? Z.of_nat i)%Z.
Proof.
  intros [R I] P Hi. unfold renum. destruct (Z.ltb_spec p 0).
  - transitivity false; [|symmetry]; apply Z.eqb_neq; lia.
  - destruct (Z.eqb_spec p (Z.of_nat i)) as [->|NE].
    + rewrite Nat2Z.id. apply Z.eqb_refl.
    + apply Z.eqb_neq. intros E. apply Nat2Z.inj in E. apply I in E; lia.
Qed.
Lemma child_moved N pi lam lam' prev prev' i : renumbering N pi -> valid lam -> length lam = N -> lam_moved N pi lam lam' -> moved N pi prev prev' ->
  i < N -> Permutation (child_msgs lam' prev' (pi i)) (child_msgs lam prev i).
Proof.
  intros RN V LN ML MP Hi. unfold child_msgs.
  set (f := fun ps : Z * St => (renum pi (fst ps), snd ps)).
  assert (PC : Permutation (combine lam' prev') (map f (combine lam prev))).
  { apply (moved_perm N pi); auto. destruct ML as (L1 & L2 & E1), MP as (L3 & L4 & E2). rewrite map_length in L1.
    split; [rewrite map_length, combine_length; lia|]. split; [rewrite combine_length; lia|]. intros j Hj.
    destruct (nth_error lam j) as [p|] eqn:Ep; [|apply nth_error_None in Ep; lia]. destruct (nth_error prev j) as [s|] eqn:Es; [|apply nth_error_None in Es; lia].
    rewrite nth_error_map, (combine_nth_error _ _ _ _ _ Ep Es). cbn [option_map].
    apply combine_nth_error; [rewrite E1, nth_error_map, Ep by auto; reflexivity|rewrite E2 by auto; auto]. }
  transitivity (map (fun ps => message (snd ps)) (filter (fun ps => (fst ps =? Z.of_nat (pi i))%Z) (map f (combine lam prev)))).
  - apply Permutation_map. clear - PC. induction PC; cbn [filter]; auto.
    + destruct (_ =? _)%Z; auto.
    + destruct (fst x =? _)%Z, (fst y =? _)%Z; auto. apply perm_swap.
    + etransitivity; eauto.
  - assert (E : map (fun ps : Z * St => message (snd ps)) (filter (fun ps => (fst ps =? Z.of_nat (pi i))%Z) (map f (combine lam prev))) =
               map (fun ps => message (snd ps)) (filter (fun ps => (fst ps =? Z.of_nat i)%Z) (combine lam prev))); [|now rewrite E].
    assert (VC : Forall (fun ps : Z * St => (-1 <= fst ps < Z.of_nat N)%Z) (combine lam prev)).
    { apply Forall_forall. intros [p s] Hp. apply in_combine_l in Hp. unfold valid in V. rewrite Forall_forall in V. specialize (V p Hp). cbn. lia. }
    clear PC. revert VC. generalize (combine lam prev) as l. induction l as [|[p s] l IH]; intros VC; [reflexivity|].
    inversion VC as [|? ? Vp VC']; subst. specialize (IH VC'). cbn [map filter f fst snd] in *.
    rewrite (renum_eq (length lam) pi p i RN) by auto. destruct (p =? Z.of_nat i)%Z; cbn [map snd]; rewrite IH; reflexivity.
Qed.
Lemma renum_valid N pi lam lam' : renumbering N pi -> valid lam -> length lam = N -> lam_moved N pi lam lam' -> valid lam'.
Proof.
  intros RN V L ML. destruct ML as (L1 & L2 & E). assert (PM : Permutation lam' (map (renum pi) lam)) by (apply (moved_perm N pi); [exact RN|exact (conj L1 (conj L2 E))]).
  unfold valid in *. rewrite Forall_forall in *. intros p Hp. apply (Permutation_in _ PM) in Hp. apply in_map_iff in Hp. destruct Hp as (p0 & <- & Hp0).
  specialize (V p0 Hp0). unfold renum. destruct (Z.ltb_spec p0 0); [lia|]. destruct RN as [R _]. specialize (R (Z.to_nat p0) ltac:(lia)). lia.
Qed.
Lemma step_moved N pi lam lam' inputs inputs' prev prev' i r : renumbering N pi -> valid lam -> length lam = N -> lam_moved N pi lam lam' ->
  moved N pi inputs inputs' -> moved N pi prev prev' -> i < N ->
  link_step lam inputs prev i r -> link_step lam' inputs' prev' (pi i) r.
Proof.
  intros RN V LN ML MI MP Hi (p & x & s & m & A & B & C & D & ->). exists (renum pi p), x, s, m.
  split. { destruct ML as (_ & _ & E). rewrite E, nth_error_map, A by auto. reflexivity. }
  split. { destruct MI as (_ & _ & E). now rewrite E. } split. { destruct MP as (_ & _ & E). now rewrite E. } split.
  - unfold valid in V. rewrite Forall_forall in V. specialize (V p (nth_error_In _ _ A)). destruct D as [[-> ->]|(P & u & D & ->)].
    + left. auto.
    + right. unfold renum. destruct (Z.ltb_spec p 0); [lia|]. split; [lia|]. exists u. split; auto. rewrite Nat2Z.id.
      destruct MP as (_ & _ & E). rewrite E; auto. lia.
  - rewrite (total_perm _ _ (child_moved N pi lam lam' prev prev' i RN V LN ML MP Hi)). reflexivity.
Qed.
Lemma surj N pi : renumbering N pi -> forall j, j < N -> exists i, i < N /\ pi i = j.
Proof.
  intros [R I] j Hj. assert (ND : NoDup (map pi (seq 0 N))).
  { apply NoDup_nth_error. intros a b Ha E. rewrite map_length, seq_length in Ha.
    assert (SQ : forall k, k < N -> nth_error (seq 0 N) k = Some k).
    { intros k Hk. rewrite (nth_error_nth' _ 0) by now rewrite seq_length. now rewrite seq_nth. }
    rewrite !nth_error_map, (SQ a Ha) in E. cbn in E.
    destruct (Nat.lt_ge_cases b N) as [Hb|Hb].
    - rewrite (SQ b Hb) in E. cbn in E. injection E as E. now apply I.
    - assert (nth_error (seq 0 N) b = None) as E0 by (apply nth_error_None; rewrite seq_length; lia). rewrite E0 in E. discriminate. }
  assert (IN : incl (seq 0 N) (map pi (seq 0 N))).
  { apply NoDup_length_incl; auto; [now rewrite map_length|]. intros y Hy. apply in_map_iff in Hy. destruct Hy as (i & <- & Hi). apply in_seq in Hi. apply in_seq. specialize (R i). lia. }
  specialize (IN j). rewrite in_seq in IN. specialize (IN ltac:(lia)). apply in_map_iff in IN. destruct IN as (i & E & Hi). apply in_seq in Hi. exists i. split; [lia|auto].
Qed.

(** C51.  Renumbering the links renumbers outputs and states in the same way, over any number of time steps. *)
Theorem C51_equivariant N pi lam lam' : renumbering N pi -> valid lam -> length lam = N -> lam_moved N pi lam lam' ->
  forall xs xs' st st', Forall2 (moved N pi) xs xs' -> moved N pi st st' ->
  exists ys s1 ys' s1', unroll lam xs st = Ok (ys, s1) /\ unroll lam' xs' st' = Ok (ys', s1') /\
    Forall2 (moved N pi) ys ys' /\ moved N pi s1 s1'.
Proof.
  intros RN V LN ML. pose proof (renum_valid _ _ _ _ RN V LN ML) as V'. assert (LN' : length lam' = N) by apply ML.
  intros xs xs' st st' F. revert st st'. induction F as [|x x' xs xs' MX F IH]; intros st st' MS; cbn [M_Ring.unroll].
  - exists [], st, [], st'. split; auto.
  - assert (LX : length x = N) by apply MX. assert (LX' : length x' = N) by apply MX. assert (LS : length st = N) by apply MS. assert (LS' : length st' = N) by apply MS.
    destruct (C51_step lam x st V ltac:(congruence) ltac:(congruence)) as (ys & s1 & E1 & Ly & Ls & P).
    destruct (C51_step lam' x' st' V' ltac:(congruence) ltac:(congruence)) as (ys' & s1' & E1' & Ly' & Ls' & P').
    assert (Q : forall i, i < N -> nth_error ys' (pi i) = nth_error ys i /\ nth_error s1' (pi i) = nth_error s1 i).
    { intros i Hi. destruct (P i ltac:(lia)) as (y & s & A & B & C). pose proof (rn_range _ _ RN i Hi) as Rp. destruct (P' (pi i) ltac:(lia)) as (y' & s' & A' & B' & C').
      pose proof (step_moved N pi lam lam' x x' st st' i (y, s) RN V LN ML MX MS Hi C) as C2. pose proof (link_step_fun _ _ _ _ _ _ C2 C') as E. injection E as -> ->. split; congruence. }
    rewrite E1, E1'. cbn [bind fst snd]. destruct (IH s1 s1') as (zs & t1 & zs' & t1' & -> & -> & FZ & MT).
    { split; [lia|]. split; [lia|]. intros i Hi. now apply Q. }
    cbn [bind fst snd]. exists (ys :: zs), t1, (ys' :: zs'), t1'. split; auto. split; auto. split; auto. constructor; auto.
    split; [lia|]. split; [lia|]. intros i Hi. now apply Q.
Qed.

(** C51.  Batch elements do not interact: each is processed exactly as if it were alone. *)
Theorem C51_batch lam sts Xs out sts' : batched lam sts Xs = Ok (out, sts') ->
  length out = length Xs /\ length sts' = length Xs /\
  forall b x st, nth_error Xs b = Some x -> nth_error sts b = Some st ->
    exists y s', nth_error out b = Some y /\ nth_error sts' b = Some s' /\ unroll lam x st = Ok (y, s').
Proof.
  unfold ring_batched. destruct (Nat.eqb_spec (length sts) (length Xs)) as [E|E]; [|discriminate]. cbn [negb]. intros HH.
  apply bind_Ok in HH. destruct HH as (rs & EM & HH). injection HH as <- <-. pose proof (mapM_Ok_length _ _ _ EM) as L.
  rewrite combine_length in L. split; [rewrite map_length; lia|]. split; [rewrite map_length; lia|].
  intros b x st Hx Hs. pose proof (combine_nth_error _ _ _ _ _ Hs Hx) as EC. destruct (Prelude.mapM_nth _ _ _ _ _ EM EC) as ([y s'] & A & B). cbn [fst snd] in B.
  exists y, s'. rewrite !nth_error_map, A. auto.
Qed.
End C51.

(** ** Non-vacuity and a silent error *)
Definition toy_cell := @cell_apply nat nat nat nat nat nat nat 0 Nat.add (fun s => s) (fun h => h + 1) (fun x m b => x + 10 * m + 100 * b) (fun ci s => (ci, ci + s)) (fun o => o).
(** three links: 1 and 2 hang on 0 *)
Example C51_example : toy_cell [-1; 0; 0]%Z [1; 2; 3] [4; 5; 6] = Ok ([1301; 52; 53], [1305; 57; 59]).
Proof. vm_compute. reflexivity. Qed.
Example C51_renumbering_example : renumbering 3 (fun i => (i + 1) mod 3) /\ lam_moved 3 (fun i => (i + 1) mod 3) [-1; 0; 0]%Z [1; -1; 1]%Z.
Proof.
  split; [split|].
  - intros i Hi. apply Nat.mod_upper_bound. lia.
  - intros i j Hi Hj. destruct i as [|[|[|]]]; destruct j as [|[|[|]]]; cbn; lia.
  - split; [reflexivity|]. split; [reflexivity|]. intros i Hi. destruct i as [|[|[|]]]; [reflexivity..|lia].
Qed.
(** Inputs for too few links are not reported: the last one is used again. *)
Theorem C51_too_few_inputs_refuted : exists y, toy_cell [-1; 0; 0]%Z [1; 2] [4; 5; 6] = Ok y.
Proof. eexists. vm_compute. reflexivity. Qed.
