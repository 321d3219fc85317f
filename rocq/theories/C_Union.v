(** * Property C43: dictionary union *)
From Coq Require Import String ZArith Lia Bool Arith List.
From Verif Require Import Prelude M_Util.
Import ListNotations.
Local Open Scope nat_scope.

Section Union.
Context {A : Type}.
Notation cell := (@cell A).
Notation store := (@store A).
Notation inner := (list (string * A)).

(** ** Specification *)
(** The entry of the dictionary object at [a] under key [k]: an array or an inner dictionary. *)
Definition entry (st : store) (a : nat) (k : string) : option (A + inner) :=
  match nth_error (tops st) a with
  | None => None
  | Some d => match dget String.eqb d k with
              | None => None
              | Some (Leaf x) => Some (inl x)
              | Some (Ref r) => option_map inr (nth_error (inners st) r)
              end
  end.
(** A dictionary object: unique keys, and references to inner dictionaries with unique keys. *)
Definition is_dict (st : store) (a : nat) : Prop :=
  exists d, nth_error (tops st) a = Some d /\ NoDup (map fst d) /\
    forall k r, In (k, Ref r) d -> exists i, nth_error (inners st) r = Some i /\ NoDup (map fst i).
(** [v] is the inner dictionary that joins [i1] and [i2], values of [i2] winning. *)
Definition joins (i1 i2 v : inner) : Prop := forall k, dget String.eqb v k = match dget String.eqb i2 k with Some x => Some x | None => dget String.eqb i1 k end.
Definition disjoint (i1 i2 : inner) : Prop := forall k, dget String.eqb i1 k = None \/ dget String.eqb i2 k = None.
(** What the union has under a key, given what the two arguments have there. *)
Definition union_entry (e1 e2 e : option (A + inner)) : Prop :=
  match e1, e2 with
  | _, None => e = e1
  | None, _ => e = e2
  | Some (inr i1), Some (inr i2) => exists v, e = Some (inr v) /\ joins i1 i2 v
  | _, _ => False
  end.

(** ** Dictionaries as association lists *)
Lemma dget_dset_eq {V} (d : list (string * V)) k v k' : dget String.eqb (dset String.eqb d k v) k' = if String.eqb k' k then Some v else dget String.eqb d k'.
Proof.
  destruct (String.eqb_spec k' k) as [->|N]; [apply dget_dset_same; apply String.eqb_eq|]. apply dget_dset_other; auto. apply String.eqb_eq.
Qed.
Lemma dget_None_iff {V} (d : list (string * V)) k : dget String.eqb d k = None <-> ~ In k (map fst d).
Proof.
  induction d as [|[a b] d IH]; cbn [dget map fst In]; [tauto|]. destruct (String.eqb_spec k a) as [->|N]; [split; [discriminate|tauto]|]. rewrite IH. split; [intros H [E|E]; [congruence|tauto]|tauto].
Qed.
Lemma dget_NoDup_In {V} (d : list (string * V)) k v : NoDup (map fst d) -> In (k, v) d -> dget String.eqb d k = Some v.
Proof.
  induction d as [|[a b] d IH]; cbn [dget map]; intros N H; [contradiction|]. inversion N as [|? ? N1 N2]; subst. destruct H as [E|H].
  - injection E as -> ->. now rewrite String.eqb_refl.
  - destruct (String.eqb_spec k a) as [->|]; auto. exfalso. apply N1. change a with (fst (a, v)). now apply in_map.
Qed.
Lemma dget_In_iff {V} (d : list (string * V)) k v : dget String.eqb d k = Some v -> In (k, v) d.
Proof. induction d as [|[a b] d IH]; cbn [dget]; [discriminate|]. destruct (String.eqb_spec k a) as [->|]; [intros [= ->]; now left|right; auto]. Qed.
Lemma dset_keys {V} (d : list (string * V)) k v : NoDup (map fst d) -> NoDup (map fst (dset String.eqb d k v)).
Proof.
  induction d as [|[a b] d IH]; intros N; cbn [dset]; [repeat constructor; auto|]. inversion N as [|? ? N1 N2]; subst. destruct (String.eqb_spec k a) as [->|E]; [exact N|].
  cbn [map fst]. constructor; [|auto]. rewrite <- dget_None_iff in *. rewrite dget_dset_eq. destruct (String.eqb_spec a k); [congruence|exact N1].
Qed.
Lemma dupdate_dget (e : inner) : forall d k, NoDup (map fst e) -> dget String.eqb (dupdate d e) k = match dget String.eqb e k with Some v => Some v | None => dget String.eqb d k end.
Proof.
  unfold dupdate. induction e as [|[a b] e IH]; intros d k N; [reflexivity|]. inversion N as [|? ? N1 N2]; subst. cbn [fold_left fst snd dget]. rewrite IH by auto. rewrite dget_dset_eq.
  destruct (String.eqb_spec k a) as [->|E]; [|reflexivity]. rewrite <- dget_None_iff in N1. now rewrite N1.
Qed.

(** ** The union on values instead of objects *)
Notation V := (A + inner)%type.
Definition join_val (ow : bool) (v1 v2 : V) : result V :=
  match v2, v1 with
  | inr i2, inr i1 =>
      do _ <- (if ow then Ok tt else assert_ (forallb (fun e => negb (dmem String.eqb i1 (fst e))) i2));
      Ok (inr (dupdate i1 i2))
  | _, _ => Err EOther
  end.
Definition pstep (ow : bool) (l : list (string * V)) (kv : string * V) : result (list (string * V)) :=
  match dget String.eqb l (fst kv) with
  | None => Ok (dset String.eqb l (fst kv) (snd kv))
  | Some v1 => do v <- join_val ow v1 (snd kv); Ok (dset String.eqb l (fst kv) v)
  end.
Lemma pfold_spec ow l2 : forall l1 l, NoDup (map fst l2) -> foldM (pstep ow) l1 l2 = Ok l ->
  forall k, match dget String.eqb l1 k, dget String.eqb l2 k with
            | e1, None => dget String.eqb l k = e1
            | None, e2 => dget String.eqb l k = e2
            | Some v1, Some v2 => exists v, join_val ow v1 v2 = Ok v /\ dget String.eqb l k = Some v
            end.
Proof.
  induction l2 as [|[a b] l2 IH]; intros l1 l N H k; cbn [foldM] in H.
  - injection H as <-. cbn [dget]. destruct (dget String.eqb l1 k); reflexivity.
  - inversion N as [|? ? N1 N2]; subst. apply bind_Ok in H. destruct H as (l1' & H1 & H). specialize (IH l1' l N2 H k). cbn [dget].
    assert (NA : dget String.eqb l2 a = None) by now apply dget_None_iff.
    unfold pstep in H1. cbn [fst snd] in H1. destruct (dget String.eqb l1 a) as [v1|] eqn:E1.
    + apply bind_Ok in H1. destruct H1 as (v & Hv & H1). injection H1 as <-. rewrite dget_dset_eq in IH. destruct (String.eqb_spec k a) as [->|Ne].
      * rewrite NA in IH. rewrite E1. eauto.
      * exact IH.
    + injection H1 as <-. rewrite dget_dset_eq in IH. destruct (String.eqb_spec k a) as [->|Ne].
      * rewrite NA in IH. now rewrite E1.
      * exact IH.
Qed.
Lemma pfold_err ow l2 : forall l1 e, NoDup (map fst l2) -> foldM (pstep ow) l1 l2 = Err e ->
  exists k v1 v2, dget String.eqb l1 k = Some v1 /\ dget String.eqb l2 k = Some v2 /\ join_val ow v1 v2 = Err e.
Proof.
  induction l2 as [|[a b] l2 IH]; intros l1 e N H; cbn [foldM] in H; [discriminate|]. inversion N as [|? ? N1 N2]; subst.
  assert (NA : dget String.eqb l2 a = None) by now apply dget_None_iff.
  unfold pstep at 1 in H. cbn [fst snd] in H. destruct (dget String.eqb l1 a) as [v1|] eqn:E1.
  - destruct (join_val ow v1 b) as [v|e'] eqn:J; cbn [bind] in H.
    + destruct (IH _ _ N2 H) as (k & w1 & w2 & H1 & H2 & H3). rewrite dget_dset_eq in H1. exists k, w1, w2. cbn [dget]. destruct (String.eqb_spec k a) as [->|Ne]; [congruence|auto].
    + injection H as <-. exists a, v1, b. cbn [dget]. rewrite String.eqb_refl. auto.
  - cbn [bind] in H. destruct (IH _ _ N2 H) as (k & w1 & w2 & H1 & H2 & H3). rewrite dget_dset_eq in H1. exists k, w1, w2. cbn [dget]. destruct (String.eqb_spec k a) as [->|Ne]; [congruence|auto].
Qed.

(** ** From objects to values *)
Definition res (ins : list inner) (c : cell) : V := match c with Leaf a => inl a | Ref r => inr (nth r ins []) end.
Definition sem (ins : list inner) (d : list (string * cell)) : list (string * V) := map (fun kv => (fst kv, res ins (snd kv))) d.
Definition refs (d : list (string * cell)) : list nat := flat_map (fun kv => match snd kv with Leaf _ => [] | Ref r => [r] end) d.
Lemma sem_dget ins d k : dget String.eqb (sem ins d) k = option_map (res ins) (dget String.eqb d k).
Proof. induction d as [|[a b] d IH]; cbn; [reflexivity|]. destruct (String.eqb k a); auto. Qed.
Lemma sem_dset ins d k c : dset String.eqb (sem ins d) k (res ins c) = sem ins (dset String.eqb d k c).
Proof. unfold sem in *. induction d as [|[a b] d IH]; cbn; [reflexivity|]. destruct (String.eqb k a); cbn; [reflexivity|]. f_equal. exact IH. Qed.
Lemma sem_keys ins d : map fst (sem ins d) = map fst d.
Proof. unfold sem. rewrite map_map. reflexivity. Qed.
Lemma refs_In d r : In r (refs d) <-> exists k, In (k, Ref r) d.
Proof.
  unfold refs. rewrite in_flat_map. split.
  - intros ([k [a|r']] & I & H); cbn in H; [contradiction|]. destruct H as [->|[]]. eauto.
  - intros (k & I). exists (k, Ref r). split; [exact I|now left].
Qed.
Lemma refs_app d e : refs (d ++ e) = refs d ++ refs e. Proof. apply flat_map_app. Qed.
Lemma dset_fresh {W} (d : list (string * W)) k v : dget String.eqb d k = None -> dset String.eqb d k v = d ++ [(k, v)].
Proof. induction d as [|[a b] d IH]; cbn [dget dset app]; intros H; [reflexivity|]. destruct (String.eqb k a); [discriminate|]. now rewrite IH. Qed.
Lemma sem_ext ins ins' d : (forall r, In r (refs d) -> nth r ins [] = nth r ins' []) -> sem ins d = sem ins' d.
Proof.
  intros H. unfold sem. apply map_ext_in. intros [k [a|r]] I; cbn; [reflexivity|]. do 2 f_equal. apply H. apply refs_In. eauto.
Qed.
Lemma set_at_length {B} (l : list B) i v : i < length l -> length (set_at l i v) = length l.
Proof. intros H. unfold set_at. rewrite app_length. cbn [length]. rewrite firstn_length, skipn_length. lia. Qed.
Lemma set_at_nth {B} (l : list B) i v j d : i < length l -> nth j (set_at l i v) d = if j =? i then v else nth j l d.
Proof.
  revert i j. induction l as [|a l IH]; intros [|i] [|j] H; cbn [length] in H; try lia; try reflexivity. unfold set_at in *. cbn [firstn skipn app nth Nat.eqb]. apply IH. lia.
Qed.
Lemma set_at_nth_error {B} (l : list B) i v j : j <> i -> i < length l -> nth_error (set_at l i v) j = nth_error l j.
Proof.
  revert i j. induction l as [|a l IH]; intros [|i] [|j] N H; cbn [length] in H; try lia; try reflexivity; try congruence. unfold set_at in *. cbn [firstn skipn app nth_error]. apply IH; [congruence|lia].
Qed.
Lemma set_at_app {B} (l r : list B) x v : set_at (l ++ x :: r) (length l) v = l ++ v :: r.
Proof. unfold set_at. induction l as [|a l IH]; cbn [app length firstn skipn]; [reflexivity|]. f_equal. exact IH. Qed.

(** Modifying one inner dictionary that only key [k] refers to. *)
Lemma sem_set_at ins d k r v : NoDup (refs d) -> NoDup (map fst d) -> dget String.eqb d k = Some (Ref r) -> r < length ins ->
  sem (set_at ins r v) d = dset String.eqb (sem ins d) k (inr v).
Proof.
  intros ND NK H Hr. induction d as [|[a b] d IH]; [discriminate|]. cbn [dget] in H. cbn [sem map fst snd dset]. inversion NK as [|? ? NK1 NK2]; subst.
  destruct (String.eqb_spec k a) as [->|N].
  - injection H as ->. cbn [res]. rewrite set_at_nth, Nat.eqb_refl by auto. f_equal. apply sem_ext. intros r' I. rewrite set_at_nth by auto. destruct (Nat.eqb_spec r' r) as [->|]; [|reflexivity].
    cbn [refs flat_map snd app] in ND. inversion ND; contradiction.
  - f_equal.
    + f_equal. destruct b as [x|r']; [reflexivity|]. cbn [res]. rewrite set_at_nth by auto. destruct (Nat.eqb_spec r' r) as [->|]; [|reflexivity].
      exfalso. cbn [refs flat_map snd app] in ND. inversion ND as [|? ? ND1 _]; subst. apply ND1. apply refs_In. exists k. now apply dget_In_iff.
    + apply IH; auto. destruct b; cbn [refs flat_map snd app] in ND; [exact ND|]. now inversion ND.
Qed.

Lemma NoDup_left {B} (a b : list B) : NoDup (a ++ b) -> NoDup a.
Proof. induction a as [|x a IH]; intros H; [constructor|]. inversion H as [|? ? H1 H2]; subst. constructor; [intros I; apply H1, in_or_app; now left|auto]. Qed.
Lemma NoDup_mid {B} (a b c : list B) : NoDup (a ++ b ++ c) -> NoDup (a ++ c).
Proof. induction b as [|x b IH]; intros H; [exact H|]. apply IH. now apply NoDup_remove_1 in H. Qed.
Lemma step_sem ow a1 st c kv rest : nth_error (tops st) a1 = Some c -> NoDup (map fst c) ->
  NoDup (refs c ++ refs (kv :: rest)) -> Forall (fun r => r < length (inners st)) (refs c ++ refs (kv :: rest)) ->
  match pstep ow (sem (inners st) c) (fst kv, res (inners st) (snd kv)) with
  | Err e => union_step ow a1 st kv = Err e
  | Ok l => exists c' ins', union_step ow a1 st kv = Ok (mkStore (set_at (tops st) a1 c') ins') /\ sem ins' c' = l /\ NoDup (map fst c') /\
      NoDup (refs c' ++ refs rest) /\ length ins' = length (inners st) /\ (forall r, ~ In r (refs c) -> nth_error ins' r = nth_error (inners st) r) /\
      incl (refs c') (refs c ++ refs [kv])
  end.
Proof.
  intros Hc NK ND FR. destruct kv as [k v]. unfold pstep, union_step. rewrite Hc. cbn [fst snd]. rewrite sem_dget.
  assert (RC : refs ((k, v) :: rest) = refs [(k, v)] ++ refs rest) by apply (refs_app [(k, v)] rest).
  destruct (dget String.eqb c k) as [v1|] eqn:E1; cbn [option_map].
  - destruct v as [x2|r2]; [reflexivity|]. destruct v1 as [x1|r1]; [reflexivity|]. cbn [res join_val].
    assert (I1 : In r1 (refs c)) by (apply refs_In; exists k; now apply dget_In_iff).
    rewrite Forall_forall in FR. assert (L1 : r1 < length (inners st)) by (apply FR, in_or_app; now left).
    assert (L2 : r2 < length (inners st)) by (apply FR, in_or_app; right; rewrite RC; apply in_or_app; left; now left).
    rewrite (nth_error_nth' (inners st) [] L1), (nth_error_nth' (inners st) [] L2). set (i1 := nth r1 _ _). set (i2 := nth r2 _ _).
    destruct ow; [|unfold assert_; destruct (forallb _ _); [|reflexivity]]; cbn [bind].
    all: exists c, (set_at (inners st) r1 (dupdate i1 i2)).
    all: assert (SA : set_at (tops st) a1 c = tops st) by (clear - Hc; revert a1 Hc; induction (tops st) as [|y l IH]; intros [|a1] H; try discriminate; unfold set_at; cbn in *; [injection H as ->; reflexivity|f_equal; now apply IH]).
    all: rewrite SA; split; [reflexivity|]; split; [apply sem_set_at; auto; now apply NoDup_left in ND|]; split; [exact NK|].
    all: split; [rewrite RC in ND; now apply NoDup_mid in ND|].
    all: (split; [now apply set_at_length|]; split; [intros r Nr; apply set_at_nth_error; [intros ->; contradiction|exact L1]|]; intros r Hr; apply in_or_app; now left).
  - exists (dset String.eqb c k v), (inners st). split; [reflexivity|]. split; [now rewrite sem_dset|]. split; [now apply dset_keys|]. rewrite dset_fresh by auto.
    rewrite refs_app. split; [rewrite <- app_assoc, <- RC; exact ND|]. split; [reflexivity|]. split; [reflexivity|]. apply incl_refl.
Qed.
Lemma fold_sem ow T d2 rest : forall c ins, NoDup (map fst c) -> NoDup (refs c ++ refs rest) -> Forall (fun r => r < length ins) (refs c ++ refs rest) ->
  match foldM (pstep ow) (sem ins c) (sem ins rest) with
  | Err e => foldM (union_step ow (length T)) (mkStore (T ++ [c; d2]) ins) rest = Err e
  | Ok l => exists c' ins', foldM (union_step ow (length T)) (mkStore (T ++ [c; d2]) ins) rest = Ok (mkStore (T ++ [c'; d2]) ins') /\ sem ins' c' = l /\ length ins' = length ins /\
      (forall r, ~ In r (refs c) -> ~ In r (refs rest) -> nth_error ins' r = nth_error ins r) /\ incl (refs c') (refs c ++ refs rest)
  end.
Proof.
  induction rest as [|kv rest IH]; intros c ins NK ND FR; cbn [sem map foldM].
  - exists c, ins. split; [reflexivity|]. split; [reflexivity|]. split; [reflexivity|]. split; [reflexivity|]. rewrite app_nil_r. apply incl_refl.
  - assert (Hc : nth_error (tops (mkStore (T ++ [c; d2]) ins)) (length T) = Some c) by (cbn [tops]; rewrite nth_error_app2, Nat.sub_diag by lia; reflexivity).
    pose proof (step_sem ow (length T) (mkStore (T ++ [c; d2]) ins) c kv rest Hc NK ND FR) as S. cbn [tops inners] in S.
    destruct (pstep ow (sem ins c) (fst kv, res ins (snd kv))) as [l|e]; [|rewrite S; reflexivity].
    destruct S as (c' & ins' & -> & <- & NK' & ND' & L' & O' & I'). cbn [bind]. rewrite set_at_app.
    assert (RC : refs (kv :: rest) = refs [kv] ++ refs rest) by apply (refs_app [kv] rest).
    change (map (fun kv0 : string * cell => (fst kv0, res ins (snd kv0))) rest) with (sem ins rest).
    assert (SE : sem ins rest = sem ins' rest).
    { apply sem_ext. intros r Hr. assert (Nr : ~ In r (refs c)).
      { intros Hc'. rewrite RC in ND. apply in_split in Hc'. destruct Hc' as (u & w & E). rewrite E in ND. rewrite <- app_assoc in ND. cbn [app] in ND. apply NoDup_remove_2 in ND. apply ND. rewrite !in_app_iff. auto. }
      specialize (O' r Nr). destruct (nth_error ins r) as [x|] eqn:Ex.
      - now rewrite (nth_error_nth _ _ [] Ex), (nth_error_nth _ _ [] O').
      - apply nth_error_None in Ex. rewrite !nth_overflow; auto; lia. }
    rewrite SE. specialize (IH c' ins' NK' ND').
    assert (FR' : Forall (fun r => r < length ins') (refs c' ++ refs rest)).
    { rewrite Forall_forall in *. intros r Hr. rewrite L'. apply FR. rewrite RC. apply in_app_iff in Hr. destruct Hr as [Hr|Hr]; [apply I' in Hr; apply in_app_iff in Hr; rewrite !in_app_iff; tauto|rewrite !in_app_iff; tauto]. }
    specialize (IH FR'). destruct (foldM (pstep ow) (sem ins' c') (sem ins' rest)) as [l|e]; [|exact IH].
    destruct IH as (c2 & ins2 & E2 & S2 & L2 & O2 & I2). exists c2, ins2. split; [exact E2|]. split; [exact S2|]. split; [lia|]. split.
    + intros r N1 N2. rewrite RC, in_app_iff in N2. rewrite O2; [apply O'; tauto| |tauto]. intros H. apply I' in H. rewrite in_app_iff in H. tauto.
    + intros r Hr. apply I2 in Hr. rewrite RC, !in_app_iff. apply in_app_iff in Hr. destruct Hr as [Hr|Hr]; [apply I' in Hr; apply in_app_iff in Hr; tauto|tauto].
Qed.

(** ** Copying *)
Lemma copy_spec d : forall st, (forall k r, In (k, Ref r) d -> r < length (inners st)) ->
  exists ext d', copy_cells st d = Ok (mkStore (tops st) (inners st ++ ext), d') /\ map fst d' = map fst d /\
    refs d' = seq (length (inners st)) (length ext) /\ sem (inners st ++ ext) d' = sem (inners st) d /\
    forall i, In i ext -> exists k r, In (k, Ref r) d /\ nth_error (inners st) r = Some i.
Proof.
  induction d as [|[k [a|r]] d IH]; intros st H; cbn [copy_cells].
  - exists [], []. rewrite app_nil_r. split; [destruct st; reflexivity|]. cbn. tauto.
  - destruct (IH st) as (ext & d' & -> & K & Rf & S & X); [intros; eapply H; right; eauto|]. cbn [bind fst snd]. exists ext, ((k, Leaf a) :: d').
    split; [reflexivity|]. split; [cbn; now rewrite K|]. split; [exact Rf|]. split; [cbn; now f_equal|]. intros i Hi. destruct (X i Hi) as (k' & r & I & E). exists k', r. split; [now right|exact E].
  - assert (Hr : r < length (inners st)) by (eapply H; left; reflexivity). rewrite (nth_error_nth' (inners st) [] Hr). set (i := nth r (inners st) []).
    destruct (IH (mkStore (tops st) (inners st ++ [i]))) as (ext & d' & E & K & Rf & S & X).
    { cbn [inners]. intros k' r' I. rewrite app_length. pose proof (H k' r' (or_intror I)). cbn. lia. }
    cbn [tops inners] in *. rewrite E. cbn [bind fst snd]. exists (i :: ext), ((k, Ref (length (inners st))) :: d').
    rewrite <- app_assoc. cbn [app]. split; [reflexivity|]. split; [cbn; now rewrite K|]. split.
    + cbn [refs flat_map snd app length seq]. f_equal. unfold refs in Rf. rewrite Rf, app_length. cbn. f_equal. lia.
    + split.
      * cbn [sem map fst snd res]. f_equal.
        -- do 2 f_equal. rewrite app_nth2, Nat.sub_diag by lia. reflexivity.
        -- rewrite <- app_assoc in S. cbn [app] in S. unfold sem in S. rewrite S. apply (sem_ext (inners st ++ [i]) (inners st)). intros r' I. apply refs_In in I. destruct I as (k' & I).
           rewrite app_nth1; [reflexivity|]. eapply H. right. exact I.
      * intros j [<-|Hj]; [exists k, r; split; [now left|now apply nth_error_nth']|]. destruct (X j Hj) as (k' & r' & I & E'). exists k', r'. split; [now right|].
        rewrite nth_error_app1 in E'; [exact E'|]. eapply H. right. exact I.
Qed.
Lemma deepcopy_spec st a : is_dict st a -> exists d d' ext, nth_error (tops st) a = Some d /\ deepcopy st a = Ok (mkStore (tops st ++ [d']) (inners st ++ ext), length (tops st)) /\
  map fst d' = map fst d /\ refs d' = seq (length (inners st)) (length ext) /\ sem (inners st ++ ext) d' = sem (inners st) d /\ NoDup (map fst d) /\
  (forall i, In i ext -> NoDup (map fst i)).
Proof.
  intros (d & Hd & NK & HR). unfold deepcopy. rewrite Hd. destruct (copy_spec d st) as (ext & d' & -> & K & Rf & S & X).
  { intros k r I. destruct (HR k r I) as (i & E & _). apply nth_error_Some. congruence. }
  cbn [bind fst snd tops inners]. exists d, d', ext. split; [reflexivity|]. split; [reflexivity|]. split; [exact K|]. split; [exact Rf|]. split; [exact S|]. split; [exact NK|].
  intros i Hi. destruct (X i Hi) as (k & r & I & E). destruct (HR k r I) as (i' & E' & N). congruence.
Qed.
Lemma entry_sem st a d : nth_error (tops st) a = Some d -> (forall r, In r (refs d) -> r < length (inners st)) -> forall k, entry st a k = dget String.eqb (sem (inners st) d) k.
Proof.
  intros Hd HR k. unfold entry. rewrite Hd, sem_dget. destruct (dget String.eqb d k) as [[x|r]|] eqn:E; cbn [option_map res]; try reflexivity.
  rewrite (nth_error_nth' (inners st) []); [reflexivity|]. apply HR. apply refs_In. exists k. now apply dget_In_iff.
Qed.
Lemma is_dict_refs st a d : is_dict st a -> nth_error (tops st) a = Some d -> forall r, In r (refs d) -> r < length (inners st).
Proof. intros (d' & Hd' & _ & HR) Hd r I. rewrite Hd in Hd'. injection Hd' as <-. apply refs_In in I. destruct I as (k & I). destruct (HR k r I) as (i & E & _). apply nth_error_Some. congruence. Qed.
Lemma entry_inner_keys st a k i : is_dict st a -> entry st a k = Some (inr i) -> NoDup (map fst i).
Proof.
  intros (d & Hd & _ & HR). unfold entry. rewrite Hd. destruct (dget String.eqb d k) as [[x|r]|] eqn:E; try discriminate. apply dget_In_iff in E.
  destruct (HR k r E) as (j & Ej & Nj). rewrite Ej. cbn. intros [= <-]. exact Nj.
Qed.
Lemma no_common i1 i2 : forallb (fun e : string * A => negb (dmem String.eqb i1 (fst e))) i2 = true <-> disjoint i1 i2.
Proof.
  rewrite forallb_forall. split.
  - intros H k. destruct (dget String.eqb i2 k) as [v|] eqn:E; [|now right]. left. apply dget_In_iff in E. specialize (H _ E). cbn [fst] in H. unfold dmem in H. destruct (dget String.eqb i1 k); [discriminate|reflexivity].
  - intros H [k v] I. cbn [fst]. unfold dmem. destruct (H k) as [->|N]; [reflexivity|]. apply dget_None_iff in N. exfalso. apply N. change k with (fst (k, v)). now apply in_map.
Qed.

(** Everything about one call. *)
Lemma union_run st a1 a2 ow : is_dict st a1 -> is_dict st a2 ->
  exists l1 l2, (forall k, entry st a1 k = dget String.eqb l1 k) /\ (forall k, entry st a2 k = dget String.eqb l2 k) /\ NoDup (map fst l2) /\
  match foldM (pstep ow) l1 l2 with
  | Err e => dict_union st a1 a2 ow = Err e
  | Ok l => exists st' c, dict_union st a1 a2 ow = Ok (st', length (tops st)) /\ nth_error (tops st') (length (tops st)) = Some c /\
      (forall k, entry st' (length (tops st)) k = dget String.eqb l k) /\
      (forall b d, nth_error (tops st) b = Some d -> nth_error (tops st') b = Some d) /\
      (forall r i, nth_error (inners st) r = Some i -> nth_error (inners st') r = Some i) /\
      (forall k r, In (k, Ref r) c -> length (inners st) <= r)
  end.
Proof.
  intros D1 D2. unfold dict_union. destruct (deepcopy_spec st a1 D1) as (d1 & d1' & e1 & H1 & -> & K1 & R1 & S1 & N1 & X1). cbn [bind fst snd].
  assert (D2' : is_dict (mkStore (tops st ++ [d1']) (inners st ++ e1)) a2).
  { destruct D2 as (d & Hd & N & HR). exists d. cbn [tops inners]. split; [rewrite nth_error_app1; [exact Hd|]; apply nth_error_Some; congruence|]. split; [exact N|].
    intros k r I. destruct (HR k r I) as (i & E & Ni). exists i. split; [|exact Ni]. rewrite nth_error_app1; [exact E|]. apply nth_error_Some. congruence. }
  destruct (deepcopy_spec _ a2 D2') as (d2 & d2' & e2 & H2 & -> & K2 & R2 & S2 & N2 & X2). cbn [tops inners] in *. cbn [bind fst snd tops inners].
  assert (L2 : a2 < length (tops st)) by (destruct D2 as (d & Hd & _); apply nth_error_Some; congruence).
  rewrite nth_error_app1 in H2 by lia.
  rewrite app_length in R2. rewrite nth_error_app2 by (rewrite app_length; cbn; lia). rewrite !app_length. cbn [length]. rewrite Nat.sub_diag. cbn [nth_error].
  exists (sem (inners st) d1), (sem (inners st ++ e1) d2).
  assert (Q1 : forall r, In r (refs d1) -> r < length (inners st)) by (apply (is_dict_refs st a1); auto).
  assert (Q2 : forall r, In r (refs d2) -> r < length (inners st)) by (apply (is_dict_refs st a2); auto).
  split; [now apply entry_sem|]. split; [intros k; rewrite (entry_sem st a2 d2 H2 Q2); f_equal; apply sem_ext; intros r Hr; rewrite app_nth1; auto|]. split; [now rewrite sem_keys|].
  assert (SE1 : sem ((inners st ++ e1) ++ e2) d1' = sem (inners st) d1).
  { rewrite <- S1. apply sem_ext. intros r Hr. rewrite R1 in Hr. apply in_seq in Hr. rewrite app_nth1; [reflexivity|]. rewrite app_length. lia. }
  assert (RR : refs d1' ++ refs d2' = seq (length (inners st)) (length e1 + length e2)) by (rewrite R1, R2, seq_app; reflexivity).
  pose proof (fold_sem ow (tops st) d2' d2' d1' ((inners st ++ e1) ++ e2)) as F. rewrite SE1, S2 in F.
  rewrite <- app_assoc. cbn [app].
  destruct (foldM (pstep ow) (sem (inners st) d1) (sem (inners st ++ e1) d2)) as [l|e].
  - destruct F as (c & ins' & -> & Sc & Li & O & I).
    + now rewrite K1.
    + rewrite RR. apply seq_NoDup.
    + rewrite RR. apply Forall_forall. intros r Hr. apply in_seq in Hr. rewrite !app_length. lia.
    + cbn [bind]. eexists _, c. split; [reflexivity|]. cbn [tops inners].
      assert (Nc : nth_error (tops st ++ [c; d2']) (length (tops st)) = Some c) by (rewrite nth_error_app2, Nat.sub_diag by lia; reflexivity).
      split; [exact Nc|]. split.
      * intros k. rewrite <- Sc. apply (entry_sem (mkStore _ ins')); [exact Nc|]. cbn [inners]. intros r Hr. apply I in Hr. rewrite RR in Hr. apply in_seq in Hr. rewrite Li, !app_length. lia.
      * split; [intros b d Hb; rewrite nth_error_app1; [exact Hb|]; apply nth_error_Some; congruence|]. split.
        -- intros r i Hr. assert (r < length (inners st)) by (apply nth_error_Some; congruence). rewrite O.
           ++ rewrite !nth_error_app1; auto. rewrite app_length. lia.
           ++ rewrite R1. intros X. apply in_seq in X. lia.
           ++ rewrite R2. intros X. apply in_seq in X. lia.
        -- intros k r Hr. assert (X : In r (refs c)) by (apply refs_In; eauto). apply I in X. rewrite RR in X. apply in_seq in X. lia.
  - rewrite F; [reflexivity|now rewrite K1|rewrite RR; apply seq_NoDup|]. rewrite RR. apply Forall_forall. intros r Hr. apply in_seq in Hr. rewrite !app_length. lia.
Qed.

(** The union: every key of either argument with the right entry; the arguments and all other objects are as before;
    the result shares no dictionary with them. *)
Theorem C43_union st a1 a2 ow st' a : is_dict st a1 -> is_dict st a2 -> dict_union st a1 a2 ow = Ok (st', a) ->
  (forall k, union_entry (entry st a1 k) (entry st a2 k) (entry st' a k)) /\
  (forall b, b < length (tops st) -> nth_error (tops st') b = nth_error (tops st) b) /\
  (forall r, r < length (inners st) -> nth_error (inners st') r = nth_error (inners st) r) /\
  length (tops st) <= a /\ (exists d, nth_error (tops st') a = Some d /\ forall k r, In (k, Ref r) d -> length (inners st) <= r).
Proof.
  intros D1 D2 H. destruct (union_run st a1 a2 ow D1 D2) as (l1 & l2 & E1 & E2 & N2 & M). destruct (foldM (pstep ow) l1 l2) as [l|e] eqn:F; [|congruence].
  destruct M as (st1 & c & Hu & Hc & Ek & T & I & Fr). rewrite H in Hu. injection Hu as <- ->. split; [|split; [|split; [|split]]].
  - intros k. rewrite E1, E2, Ek. pose proof (pfold_spec ow l2 l1 l N2 F k) as P. unfold union_entry.
    destruct (dget String.eqb l1 k) as [v1|] eqn:G1, (dget String.eqb l2 k) as [v2|] eqn:G2; auto.
    + destruct P as (v & J & G). unfold join_val in J. destruct v2 as [x2|i2]; [discriminate|]. destruct v1 as [x1|i1]; [discriminate|].
      apply bind_Ok in J. destruct J as (? & _ & J). injection J as <-. exists (dupdate i1 i2). split; [exact G|]. intros kk. apply dupdate_dget.
      apply (entry_inner_keys st a2 k); auto. now rewrite E2.
    + destruct v1; exact P.
  - intros b Hb. destruct (nth_error (tops st) b) as [d|] eqn:E; [now apply T|]. apply nth_error_None in E. lia.
  - intros r Hr. destruct (nth_error (inners st) r) as [d|] eqn:E; [now apply I|]. apply nth_error_None in E. lia.
  - lia.
  - exists c. split; [exact Hc|]. exact Fr.
Qed.
(** Without [overwrite] no entry is replaced: inner dictionaries under a common key have no common key. *)
Theorem C43_no_overwrite st a1 a2 st' a k i1 i2 : is_dict st a1 -> is_dict st a2 -> dict_union st a1 a2 false = Ok (st', a) ->
  entry st a1 k = Some (inr i1) -> entry st a2 k = Some (inr i2) -> disjoint i1 i2.
Proof.
  intros D1 D2 H G1 G2. destruct (union_run st a1 a2 false D1 D2) as (l1 & l2 & E1 & E2 & N2 & M). destruct (foldM (pstep false) l1 l2) as [l|e] eqn:F; [|congruence].
  pose proof (pfold_spec false l2 l1 l N2 F k) as P. rewrite <- E1, <- E2, G1, G2 in P. destruct P as (v & J & _). cbn [join_val] in J. apply bind_Ok in J. destruct J as (? & J & _).
  unfold assert_ in J. destruct (forallb _ _) eqn:X; [|discriminate]. now apply no_common.
Qed.
(** It fails exactly when some key is in both arguments and the entries are not two inner dictionaries, or, without
    [overwrite], are inner dictionaries with a common key. *)
Definition conflict (ow : bool) (st : store) (a1 a2 : nat) : Prop :=
  exists k v1 v2, entry st a1 k = Some v1 /\ entry st a2 k = Some v2 /\
    match v1, v2 with inr i1, inr i2 => ow = false /\ ~ disjoint i1 i2 | _, _ => True end.
Theorem C43_fails_iff st a1 a2 ow : is_dict st a1 -> is_dict st a2 -> ((exists e, dict_union st a1 a2 ow = Err e) <-> conflict ow st a1 a2).
Proof.
  intros D1 D2. destruct (union_run st a1 a2 ow D1 D2) as (l1 & l2 & E1 & E2 & N2 & M). split.
  - intros [e H]. destruct (foldM (pstep ow) l1 l2) as [l|e'] eqn:F; [destruct M as (? & ? & M & _); congruence|].
    destruct (pfold_err ow l2 l1 e' N2 F) as (k & v1 & v2 & G1 & G2 & J). exists k, v1, v2. rewrite E1, E2. split; [exact G1|]. split; [exact G2|].
    destruct v1 as [x1|i1]; [exact Logic.I|]. destruct v2 as [x2|i2]; [exact Logic.I|]. cbn [join_val] in J. destruct ow; [discriminate|]. split; [reflexivity|].
    rewrite <- no_common. unfold assert_ in J. destruct (forallb _ _); [discriminate|]. discriminate.
  - intros (k & v1 & v2 & G1 & G2 & C). destruct (foldM (pstep ow) l1 l2) as [l|e'] eqn:F; [|eauto]. exfalso.
    pose proof (pfold_spec ow l2 l1 l N2 F k) as P. rewrite <- E1, <- E2, G1, G2 in P. destruct P as (v & J & _). unfold join_val in J. destruct v2 as [x2|i2]; [discriminate|]. destruct v1 as [x1|i1]; [discriminate|].
    destruct C as [-> C]. apply bind_Ok in J. destruct J as (? & J & _). unfold assert_ in J. destruct (forallb _ _) eqn:X; [|discriminate]. apply no_common in X. contradiction.
Qed.
End Union.

(** Two measurement dictionaries sharing a link; the first is stored under two names. *)
Definition demo_store : @store nat := mkStore
  [[("seg1"%string, Ref 0); ("dt"%string, Leaf 1)]; [("seg1"%string, Ref 1); ("seg2"%string, Ref 1)]; [("seg1"%string, Ref 2); ("seg3"%string, Ref 2)]]
  [[("acc", 1); ("gyr", 2)]; [("mag", 3)]; [("gyr", 9)]]%string.
Example C43_example : is_dict demo_store 0 /\ is_dict demo_store 1 /\
  (exists st, dict_union demo_store 0 1 false = Ok (st, 3) /\ entry st 3 "seg1" = Some (inr [("acc", 1); ("gyr", 2); ("mag", 3)]%string) /\ entry st 3 "seg2" = Some (inr [("mag", 3)]%string) /\
     entry st 0 "seg1" = Some (inr [("acc", 1); ("gyr", 2)]%string)) /\
  dict_union demo_store 0 2 false = Err EAssertion /\ dict_union demo_store 0 0 true = Err EOther /\
  (exists st, dict_union demo_store 0 2 true = Ok (st, 3) /\ entry st 3 "seg1" = Some (inr [("acc", 1); ("gyr", 9)]%string)).
Proof.
  assert (D0 : is_dict demo_store 0).
  { eexists. split; [reflexivity|]. split; [repeat constructor; cbn; intuition discriminate|]. intros k r [H|[H|[]]]; [|discriminate]. injection H as <- <-. eexists. split; [reflexivity|]. repeat constructor; cbn; intuition discriminate. }
  assert (D1 : is_dict demo_store 1).
  { eexists. split; [reflexivity|]. split; [repeat constructor; cbn; intuition discriminate|]. intros k r [H|[H|[]]]; injection H as <- <-; eexists; (split; [reflexivity|]); repeat constructor; cbn; intuition discriminate. }
  split; [exact D0|]. split; [exact D1|]. split; [eexists; split; [reflexivity|repeat split]|]. split; [reflexivity|]. split; [reflexivity|]. eexists. split; reflexivity.
Qed.
Print Assumptions C43_union.
Print Assumptions C43_fails_iff.
