(** * C63: randomize_hz. *)
From Coq Require Import Reals Lra.
From Coq Require Import ZArith Lia Bool List.
From Verif Require Import Prelude M_Rand C_Union C_Gen.
Import ListNotations.
Local Open Scope R_scope.

Section Hz.
Context {S C : Type}.
Variable dt_of : S -> R.
Variable set_dt : S -> R -> S.
Variable T_of : C -> R.
Variable set_T : C -> R -> C.
(** [dataclasses.replace]. *)
Hypothesis dt_set : forall s x, dt_of (set_dt s x) = x.
Hypothesis dt_twice : forall s x y, set_dt (set_dt s x) y = set_dt s y.
Hypothesis dt_id : forall s, set_dt s (dt_of s) = s.
Hypothesis T_set : forall c x, T_of (set_T c x) = x.
Hypothesis T_twice : forall c x y, set_T (set_T c x) y = set_T c y.
Hypothesis T_id : forall c, set_T c (T_of c) = c.
Notation hz := (randomize_hz dt_of set_dt T_of set_T Rmult Rdiv 1).

(** The pair made from system [s], configuration [c] and rate [f]: time step 1/f, otherwise the same
    system; as many time steps as [T0] took before, otherwise the same configuration. *)
Definition resampled (T0 : R) (s : S) (c : C) (f : R) (s' : S) (c' : C) : Prop :=
  dt_of s' * f = 1 /\ set_dt s' (dt_of s) = s /\
  T_of c' / dt_of s' = T0 / dt_of s /\ set_T c' (T_of c) = c.

(** All combinations, the rate varying fastest, then the configuration. *)
Definition combos {X Y V} (xs : list X) (ys : list Y) (vs : list V) : list (X * Y * V) :=
  flat_map (fun x => flat_map (fun y => map (fun v => (x, y, v)) vs) ys) xs.

Lemma combos_length {X Y V} (xs : list X) (ys : list Y) (vs : list V) :
  length (combos xs ys vs) = (length xs * (length ys * length vs))%nat.
Proof.
  unfold combos. induction xs as [|x xs IH]; cbn [flat_map length]; [reflexivity|]. rewrite app_length, IH.
  assert (E : length (flat_map (fun y => map (fun v => (x, y, v)) vs) ys) = (length ys * length vs)%nat).
  { clear. induction ys as [|y ys IH]; cbn [flat_map length]; [reflexivity|]. rewrite app_length, map_length, IH. lia. }
  lia.
Qed.

Lemma combos_In {X Y V} (xs : list X) (ys : list Y) (vs : list V) x y v :
  In (x, y, v) (combos xs ys vs) <-> In x xs /\ In y ys /\ In v vs.
Proof.
  unfold combos. rewrite in_flat_map. split.
  - intros (x' & Hx & H). apply in_flat_map in H. destruct H as (y' & Hy & H). apply in_map_iff in H.
    destruct H as (v' & E & Hv). injection E as -> -> ->. auto.
  - intros (Hx & Hy & Hv). exists x. split; auto. apply in_flat_map. exists y. split; auto. apply in_map_iff. eauto.
Qed.

Lemma flat_map_map {X Y Z'} (f : Y -> Z') (g : X -> list Y) l : flat_map (fun x => map f (g x)) l = map f (flat_map g l).
Proof. induction l as [|x l IH]; cbn [flat_map map]; [reflexivity|]. now rewrite map_app, IH. Qed.

(** C63, when all configurations have the same duration. *)
Theorem C63_randomize_hz_partial (sys : list S) (c0 : C) configs rates :
  (forall c, In c configs -> T_of c = T_of c0) ->
  (forall s, In s sys -> dt_of s <> 0) -> (forall f, In f rates -> f <> 0) ->
  exists ss cs, hz sys (c0 :: configs) rates = Ok (ss, cs) /\
    length ss = (length sys * ((1 + length configs) * length rates))%nat /\
    Forall2 (fun xyz p => match xyz with (s, c, f) => resampled (T_of c) s c f (fst p) (snd p) end)
            (combos sys (c0 :: configs) rates) (combine ss cs).
Proof.
  intros HT Hd Hf. unfold randomize_hz.
  set (g := fun x : S * C * R => match x with (s, c, f) =>
     (set_dt s (1 / f), set_T c (T_of c0 / dt_of s * (1 / f))) end).
  assert (E : flat_map (fun s => flat_map (fun c => map (fun f => (set_dt s (1 / f), set_T c (T_of c0 / dt_of s * (1 / f)))) rates)
                 (c0 :: configs)) sys = map g (combos sys (c0 :: configs) rates)).
  { unfold combos. rewrite <- flat_map_map. apply flat_map_ext. intros s. rewrite <- flat_map_map.
    apply flat_map_ext. intros c. rewrite map_map. reflexivity. }
  cbv zeta. rewrite E. do 2 eexists. split; [reflexivity|]. split.
  - rewrite !map_length, combos_length. reflexivity.
  - assert (CB : forall l : list (S * C), combine (map fst l) (map snd l) = l).
    { clear. induction l as [|(a, b) l IH]; cbn; [reflexivity|]. now rewrite IH. }
    rewrite CB.
    assert (Q : forall l, (forall x, In x l -> In x (combos sys (c0 :: configs) rates)) ->
      Forall2 (fun xyz p => match xyz with (s, c, f) => resampled (T_of c) s c f (fst p) (snd p) end) l (map g l)).
    { induction l as [|((s, c), f) l IH]; intros H; cbn [map]; constructor; [|apply IH; intros; apply H; now right].
      specialize (H _ (or_introl eq_refl)). apply combos_In in H. destruct H as (Hs & Hc & Hr).
      specialize (Hd s Hs). specialize (Hf f Hr).
      assert (Ec : T_of c = T_of c0) by (destruct Hc as [->|Hc]; auto).
      unfold resampled, g. cbn [fst snd]. rewrite dt_set, T_set, dt_twice, dt_id, T_twice, T_id.
      split; [field; auto|]. split; [reflexivity|]. split; [|reflexivity]. rewrite Ec. field. auto. }
    apply Q. auto.
Qed.

(** C63 fails for configurations of different duration: they are accepted and all get the number of
    steps of the first one. *)
Theorem C63_different_durations_refuted (s : S) (c0 c1 : C) f :
  dt_of s <> 0 -> f <> 0 -> T_of c1 <> T_of c0 ->
  exists ss cs s' c', hz [s] [c0; c1] [f] = Ok (ss, cs) /\ nth_error ss 1 = Some s' /\ nth_error cs 1 = Some c' /\
    T_of c' / dt_of s' <> T_of c1 / dt_of s.
Proof.
  intros Hd Hf HN. unfold randomize_hz. cbv zeta. cbn [flat_map map app].
  do 4 eexists. split; [reflexivity|]. split; [reflexivity|]. split; [reflexivity|].
  cbn [fst snd]. rewrite T_set, dt_set. intros E. apply HN.
  assert (E2 : T_of c0 / dt_of s = T_of c1 / dt_of s).
  { rewrite <- E. field. auto. }
  apply Rmult_eq_reg_r with (/ dt_of s); [exact (eq_sym E2)|]. now apply Rinv_neq_0_compat.
Qed.
End Hz.

(** Hypotheses met. *)
Example C63_example : exists ss cs,
  randomize_hz (fun s : R * nat => fst s) (fun s x => (x, snd s)) (fun c : R * nat => fst c) (fun c x => (x, snd c)) Rmult Rdiv 1
    [(1/100, 5%nat)] [(60, 1%nat); (60, 2%nat)] [50; 200] = Ok (ss, cs) /\ length ss = 4%nat.
Proof.
  destruct (C63_randomize_hz_partial (fun s : R * nat => fst s) (fun s x => (x, snd s)) (fun c : R * nat => fst c) (fun c x => (x, snd c))
    ltac:(auto) ltac:(auto) ltac:(intros []; auto) ltac:(auto) ltac:(auto) ltac:(intros []; auto)
    [(1/100, 5%nat)] (60, 1%nat) [(60, 2%nat)] [50; 200]) as (ss & cs & E & L & _).
  - intros c [<-|[]]. reflexivity.
  - intros s [<-|[]]. cbn. lra.
  - intros f [<-|[<-|[]]]; lra.
  - exists ss, cs. split; auto.
Qed.
Print Assumptions C63_randomize_hz_partial.
