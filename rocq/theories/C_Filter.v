(** * C52: filters and filter wrappers. *)
From Coq Require Import Reals Lra ZArith Lia String Bool List.
From Verif Require Import Prelude M_Math M_Ring M_Filter C_Ring P_Run.
Import ListNotations.

(** ** Lists *)
Lemma mapM_spec {A B} (f : A -> result B) l l' :
  mapM f l = Ok l' <-> length l' = length l /\ forall b x, nth_error l b = Some x -> exists y, nth_error l' b = Some y /\ f x = Ok y.
Proof.
  split.
  - apply P_Run.mapM_nth.
  - intros (L & H). apply mapM_Ok_iff. revert l' L H. induction l as [|a l IH]; intros [|b l'] L H; try discriminate; constructor.
    + destruct (H 0%nat a eq_refl) as (y & E & F). cbn in E. congruence.
    + apply IH; [now injection L|]. intros i x E. exact (H (S i) x E).
Qed.
Lemma choose_list {A B} (Q : nat -> A -> B -> Prop) (l : list A) :
  (forall b x, nth_error l b = Some x -> exists y, Q b x y) ->
  exists l', length l' = length l /\ forall b x, nth_error l b = Some x -> exists y, nth_error l' b = Some y /\ Q b x y.
Proof.
  revert Q. induction l as [|a l IH]; intros Q H.
  - exists []. split; [reflexivity|]. intros [|b] x E; discriminate.
  - destruct (H 0%nat a eq_refl) as (y & Hy). destruct (IH (fun b => Q (S b))) as (l' & L & Hl).
    { intros b x E. exact (H (S b) x E). }
    exists (y :: l'). split; [cbn; now rewrite L|]. intros [|b] x E; cbn in E.
    + injection E as <-. exists y. auto.
    + destruct (Hl b x E) as (z & Ez & Qz). exists z. auto.
Qed.
Lemma enum_length {A} (l : list A) : length (enum l) = length l.
Proof. unfold enum. generalize 0%nat. induction l as [|a l IH]; intros k; cbn; [reflexivity|]. now rewrite IH. Qed.
Lemma nth_error_at {A} (l : list A) b : (b < length l)%nat -> exists x, nth_error l b = Some x.
Proof. intros H. destruct (nth_error l b) eqn:E; [eauto|]. apply nth_error_None in E. lia. Qed.
Lemma same_length_nth {A B} (l : list A) (l' : list B) b x : length l' = length l -> nth_error l b = Some x -> exists y, nth_error l' b = Some y.
Proof. intros L E. apply nth_error_at. rewrite L. apply nth_error_Some. congruence. Qed.

Lemma jax_get_0 {A} (x : A) l : jax_get (x :: l) 0 = Ok x.
Proof. exact (jax_get_in (x :: l) 0 x eq_refl). Qed.

Lemma combine_nth_inv {A B} (l : list A) (l' : list B) b x y :
  nth_error (combine l l') b = Some (x, y) -> nth_error l b = Some x /\ nth_error l' b = Some y.
Proof. revert l l'. induction b as [|b IH]; intros [|a l] [|c l'] E; cbn in E; try discriminate; [now injection E as -> -> | now apply IH]. Qed.

(** ** The specification
    [x] has [T] time steps of [N] links with [F] features each. *)
Definition shaped (T N F : nat) (x : arr3) : Prop :=
  length x = T /\ Forall (fun step => length step = N /\ Forall (fun r : row => length r = F) step) x.
(** Either not given, or given for each of the [B] batch elements. *)
Definition fits {A} (B : nat) (l : option (list A)) : Prop := match l with None => True | Some l => length l = B end.
Definition elem {A} (l : option (list A)) (b : nat) : option A := match l with None => None | Some l => nth_error l b end.

(** A batch is processed successfully exactly if every element is, and then the results are those of the elements processed alone. *)
Definition consistent {P ST} (f : @filter P ST) : Prop :=
  forall T N F Xs p s y lam outs sts,
    Xs <> [] -> Forall (shaped T N F) Xs -> fits (length Xs) s -> fits (length Xs) y ->
    (f_batched f Xs p s y lam = Ok (outs, sts) <->
     length outs = length Xs /\ length sts = length Xs /\
     forall b x, nth_error Xs b = Some x -> exists o st, nth_error outs b = Some o /\ nth_error sts b = Some st /\
       f_unbatched f x p (elem s b) (elem y b) lam = Ok (o, st)).
(** A preprocessing step keeps the number of time steps and links, and the number of features depends on the old one only. *)
Definition shape_uniform (pre : arr3 -> result arr3) : Prop :=
  forall T N F, exists F', forall x x', shaped T N F x -> pre x = Ok x' -> shaped T N F' x'.

Lemma to_2d_elem {A} (l : option (list A)) B b : fits B l -> (b < B)%nat -> to_2d l b = Ok (elem l b).
Proof.
  destruct l as [l|]; cbn; intros L H; [|reflexivity]. destruct (nth_error_at l b) as (a & E); [lia|].
  rewrite E. now rewrite (jax_get_in _ _ _ E).
Qed.
Lemma nth_lt {A} (l : list A) b x : nth_error l b = Some x -> (b < length l)%nat.
Proof. intros E. apply nth_error_Some. congruence. Qed.
Lemma pairs_spec {A B C} (g : A -> result (B * C)) l outs sts :
  (exists rs, mapM g l = Ok rs /\ outs = map fst rs /\ sts = map snd rs) <->
  length outs = length l /\ length sts = length l /\
  forall b x, nth_error l b = Some x -> exists o st, nth_error outs b = Some o /\ nth_error sts b = Some st /\ g x = Ok (o, st).
Proof.
  split.
  - intros (rs & M & -> & ->). apply mapM_spec in M. destruct M as (L & M). rewrite !map_length. repeat split; auto.
    intros b x E. destruct (M b x E) as ([o st] & E' & G). exists o, st. rewrite !nth_error_map, E'. auto.
  - intros (L1 & L2 & H). exists (combine outs sts).
    assert (LC : length (combine outs sts) = length l) by (rewrite combine_length; lia). split.
    + apply mapM_spec. split; [exact LC|]. intros b x E. destruct (H b x E) as (o & st & A1 & A2 & A3).
      exists (o, st). split; [|exact A3]. now apply combine_nth_error.
    + clear - L1 L2. rewrite <- L1 in L2. clear L1. revert sts L2. induction outs as [|o outs IH]; intros [|s sts] L; try discriminate; [auto|].
      injection L as L. destruct (IH _ L) as (A1 & A2). cbn. now rewrite <- A1, <- A2.
Qed.

Section Consistency.
Context {P ST : Type}.
Implicit Type f : @filter P ST.

(** ** A filter defined on single elements *)
Theorem C52_of_unbatched fu : consistent (@of_unbatched P ST fu).
Proof.
  intros T N F Xs p s y lam outs sts NE _ FS FY. cbn [f_batched f_unbatched of_unbatched].
  set (g := fun ix : nat * arr3 => _).
  transitivity (exists rs, mapM g (enum Xs) = Ok rs /\ outs = map fst rs /\ sts = map snd rs).
  { destruct (mapM g (enum Xs)) as [rs|e]; cbn [bind].
    - split; [intros H; injection H as <- <-; eauto | intros (rs' & H & -> & ->); now injection H as <-].
    - split; [discriminate | now intros (? & ? & _)]. }
  rewrite pairs_spec. assert (LE : length (enum Xs) = length Xs) by apply enum_length. rewrite LE.
  assert (G : forall b x, nth_error Xs b = Some x -> g (b, x) = fu x p (elem s b) (elem y b) lam).
  { intros b x E. unfold g. cbn [fst snd]. pose proof (nth_lt _ _ _ E) as Hb.
    rewrite (to_2d_elem _ _ _ FS Hb), (to_2d_elem _ _ _ FY Hb). reflexivity. }
  split; intros (A & B & C); repeat (split; [assumption|]).
  - intros b x E. destruct (C b (b, x)) as (o & st & H1 & H2 & H3); [now rewrite enum_nth, E|]. exists o, st. rewrite <- G by exact E. auto.
  - intros b [i x] E. rewrite enum_nth in E. destruct (nth_error Xs b) as [x'|] eqn:E'; [|discriminate]. injection E as <- ->.
    destruct (C b x E') as (o & st & H1 & H2 & H3). exists o, st. rewrite G by exact E'. auto.
Qed.

(** ** The network *)
Section Net.
Variable forward : P -> list Z -> ST -> arr3 -> result (arr3 * ST).
Variable init_params : list Z -> nat -> P.
Variable init_state : list Z -> ST.
Lemma nfeat_shaped T N F x x' : shaped T N F x -> shaped T N F x' -> nfeat x = nfeat x'.
Proof.
  intros (L & H) (L' & H'). destruct x as [|a x], x' as [|a' x']; cbn in *; try (rewrite <- L' in L; discriminate); try reflexivity.
  inversion H as [|? ? (HN & HF) _]; subst. inversion H' as [|? ? (HN' & HF') _]; subst.
  destruct a as [|r a], a' as [|r' a']; cbn in *; try discriminate; try reflexivity.
  inversion HF; inversion HF'; subst. congruence.
Qed.
Theorem C52_network own_params own_lam : consistent (ring_filter forward init_params init_state own_params own_lam).
Proof.
  intros T N F Xs p s y lam outs sts NE SH FS FY. unfold ring_filter, of_batched. cbn [f_batched f_unbatched]. unfold ring_fb.
  destruct (match lam with Some l => Some l | None => own_lam end) as [l|] eqn:El.
  2:{ split; [discriminate|]. intros (_ & _ & H). destruct Xs as [|x Xs]; [congruence|].
      destruct (H 0%nat x eq_refl) as (o & st & _ & _ & H3). cbn in H3. discriminate. }
  destruct Xs as [|x0 Xs'] eqn:EX; [congruence|]. rewrite <- EX in *. clear NE.
  assert (S0 : shaped T N F x0) by (rewrite EX in SH; now inversion SH).
  set (pp := match p, own_params with Some p, _ => p | None, Some p => p | None, None => init_params l (nfeat x0) end).
  assert (EP : forall x X, shaped T N F x -> hd_error X = Some x ->
    match p, own_params with Some p, _ => Ok p | None, Some p => Ok p | None, None => do x0 <- jax_get X 0; Ok (init_params l (nfeat x0)) end = Ok pp).
  { intros x X Sx HX. unfold pp. destruct p; [reflexivity|]. destruct own_params; [reflexivity|].
    destruct X as [|x1 X]; [discriminate|]. injection HX as ->. rewrite jax_get_0. cbn [bind].
    now rewrite (nfeat_shaped _ _ _ _ _ Sx S0). }
  rewrite (EP x0) by (try rewrite EX; auto). cbn [bind].
  set (ss := match s with Some s => s | None => repeat (init_state l) (length Xs) end).
  assert (LS : length ss = length Xs) by (unfold ss; destruct s; [exact FS | now rewrite repeat_length]).
  rewrite LS, Nat.eqb_refl. cbn [negb].
  set (g := fun sx : ST * arr3 => forward pp l (fst sx) (snd sx)).
  transitivity (exists rs, mapM g (combine ss Xs) = Ok rs /\ outs = map fst rs /\ sts = map snd rs).
  { destruct (mapM g (combine ss Xs)) as [rs|e]; cbn [bind].
    - split; [intros H; injection H as <- <-; eauto | intros (rs' & H & -> & ->); now injection H as <-].
    - split; [discriminate | now intros (? & ? & _)]. }
  rewrite pairs_spec. assert (LC : length (combine ss Xs) = length Xs) by (rewrite combine_length; lia). rewrite LC.
  assert (G : forall b x, nth_error Xs b = Some x -> exists st, nth_error ss b = Some st /\ forall r,
     (do r <- (do p' <- match p, own_params with Some p, _ => Ok p | None, Some p => Ok p | None, None => do x0 <- jax_get [x] 0; Ok (init_params l (nfeat x0)) end;
               let s' := match option_map (fun s => [s]) (elem s b) with Some s => s | None => repeat (init_state l) (length [x]) end in
               if negb (length s' =? length [x])%nat then Err EValue
               else do rs <- mapM (fun sx => forward p' l (fst sx) (snd sx)) (combine s' [x]); Ok (map fst rs, map snd rs));
      do o <- jax_get (fst r) 0; do s' <- jax_get (snd r) 0; Ok (o, s')) = Ok r <-> g (st, x) = Ok r).
  { intros b x E. assert (Sx : shaped T N F x) by (rewrite Forall_forall in SH; apply SH; eauto using nth_error_In).
    destruct (same_length_nth Xs ss b x LS E) as (st & Est). exists st. split; [exact Est|]. intros r.
    rewrite (EP x [x] Sx eq_refl). cbn [bind].
    assert (ES : match option_map (fun s => [s]) (elem s b) with Some s => s | None => repeat (init_state l) (length [x]) end = [st]).
    { unfold ss in Est. destruct s as [s|]; cbn [elem option_map].
      - now rewrite Est.
      - apply nth_error_In, repeat_spec in Est. now subst. }
    rewrite ES. cbn [length Nat.eqb negb combine mapM fst snd]. unfold g. cbn [fst snd].
    destruct (forward pp l st x) as [[o s']|e]; cbn [bind map fst snd]; [|reflexivity].
    rewrite !jax_get_0. cbn [bind]. reflexivity. }
  split; intros (A & B & C); repeat (split; [assumption|]).
  - intros b x E. destruct (G b x E) as (st0 & Est & G'). destruct (C b (st0, x)) as (o & st & H1 & H2 & H3); [now apply combine_nth_error|].
    exists o, st. repeat (split; [assumption|]). cbv beta zeta. now apply G'.
  - intros b [st0 x] E. assert (EE : nth_error ss b = Some st0 /\ nth_error Xs b = Some x).
    { now apply combine_nth_inv. }
    destruct EE as (E1 & E2). destruct (G b x E2) as (st1 & Est & G'). rewrite E1 in Est. injection Est as <-.
    destruct (C b x E2) as (o & st & H1 & H2 & H3). exists o, st. repeat (split; [assumption|]). now apply G'.
Qed.
End Net.

(** ** Wrappers *)
Theorem C52_wrapper pre lamf post f : shape_uniform pre -> consistent f -> consistent (wrap pre lamf post f).
Proof.
  intros SU C T N F Xs p s y lam outs sts NE SH FS FY. cbn [f_batched f_unbatched wrap]. destruct (SU T N F) as (F' & SF).
  split.
  - intros H. apply bind_Ok in H. destruct H as (Xs' & M & H). apply bind_Ok in H. destruct H as ([o0 s0] & HB & H).
    apply bind_Ok in H. destruct H as (out & MP & H). cbn [fst snd] in *. injection H as -> ->.
    apply mapM_spec in M. destruct M as (LX & M).
    assert (SH' : Forall (shaped T N F') Xs').
    { apply Forall_forall. intros x' I. apply In_nth_error in I. destruct I as (b & E). destruct (same_length_nth Xs' Xs b x' (eq_sym LX) E) as (x & Ex).
      destruct (M b x Ex) as (x2 & E2 & Hp). rewrite E in E2. injection E2 as <-. apply (SF x); [|exact Hp].
      rewrite Forall_forall in SH. apply SH. eauto using nth_error_In. }
    apply (C T N F') in HB; [| |assumption|now rewrite LX|now rewrite LX].
    2:{ intros ->. destruct Xs; [congruence|discriminate]. }
    rewrite LX in HB. destruct HB as (L0 & L1 & HB). apply mapM_spec in MP. destruct MP as (LP & MP).
    assert (LE : length (enum (combine Xs o0)) = length Xs) by (rewrite enum_length, combine_length; lia).
    rewrite LE in LP. repeat (split; [assumption|]). intros b x E. destruct (M b x E) as (x' & E' & Hp).
    destruct (HB b x' E') as (o & st & H1 & H2 & H3). destruct (MP b (b, (x, o))) as (o' & Eo' & Hpost).
    { rewrite enum_nth. now rewrite (combine_nth_error _ _ _ _ _ E H1). }
    cbn [fst snd] in Hpost. rewrite (to_2d_elem _ _ _ FY (nth_lt _ _ _ E)) in Hpost. cbn [bind] in Hpost.
    exists o', st. repeat (split; [assumption|]). rewrite Hp. cbn [bind]. rewrite H3. cbn [bind fst snd]. now rewrite Hpost.
  - intros (L0 & L1 & H).
    destruct (choose_list (fun b x (r : arr3 * (arr3 * ST)) => pre x = Ok (fst r) /\ f_unbatched f (fst r) p (elem s b) (elem y b) (lamf lam) = Ok (snd r) /\
        exists o, nth_error outs b = Some o /\ nth_error sts b = Some (snd (snd r)) /\ post x (elem y b) lam (fst (snd r)) = Ok o) Xs) as (rs & LR & HR).
    { intros b x E. destruct (H b x E) as (o & st & H1 & H2 & H3). apply bind_Ok in H3. destruct H3 as (x' & Hp & H3).
      apply bind_Ok in H3. destruct H3 as (r & Hr & H3). apply bind_Ok in H3. destruct H3 as (o' & Ho & H3). injection H3 as -> <-.
      exists (x', r). cbn [fst snd]. split; [exact Hp|]. split; [exact Hr|]. exists o. auto. }
    set (Xs' := map fst rs). set (o0 := map (fun r => fst (snd r)) rs).
    assert (M : mapM pre Xs = Ok Xs').
    { apply mapM_spec. unfold Xs'. rewrite map_length. split; [exact LR|]. intros b x E. destruct (HR b x E) as (r & Er & Hp & _).
      exists (fst r). rewrite nth_error_map, Er. auto. }
    rewrite M. cbn [bind].
    assert (LX : length Xs' = length Xs) by (unfold Xs'; now rewrite map_length).
    assert (SH' : Forall (shaped T N F') Xs').
    { apply Forall_forall. intros x' I. apply In_nth_error in I. destruct I as (b & E). destruct (same_length_nth Xs' Xs b x' (eq_sym LX) E) as (x & Ex).
      destruct (HR b x Ex) as (r & Er & Hp & _). unfold Xs' in E. rewrite nth_error_map, Er in E. injection E as <-. apply (SF x); [|exact Hp].
      rewrite Forall_forall in SH. apply SH. eauto using nth_error_In. }
    assert (HB : f_batched f Xs' p s y (lamf lam) = Ok (o0, sts)).
    { apply (C T N F'); [|assumption|now rewrite LX|now rewrite LX|].
      - intros E0. rewrite E0 in LX. destruct Xs; [congruence|discriminate].
      - rewrite LX. unfold o0. rewrite map_length. repeat (split; [assumption|]). intros b x' E.
        destruct (same_length_nth Xs' Xs b x' (eq_sym LX) E) as (x & Ex). destruct (HR b x Ex) as (r & Er & _ & Hf & o & _ & Est & _).
        unfold Xs' in E. rewrite nth_error_map, Er in E. injection E as <-. exists (fst (snd r)), (snd (snd r)).
        rewrite nth_error_map, Er. split; [reflexivity|]. split; [exact Est|]. rewrite Hf. now destruct (snd r). }
    rewrite HB. cbn [bind fst snd].
    assert (MP : mapM (fun ixo => do yi <- to_2d y (fst ixo); post (fst (snd ixo)) yi lam (snd (snd ixo))) (enum (combine Xs o0)) = Ok outs).
    { apply mapM_spec. assert (LO : length o0 = length Xs) by (unfold o0; now rewrite map_length).
      split; [rewrite enum_length, combine_length; lia|]. intros b [i [x o]] E. rewrite enum_nth in E.
      destruct (nth_error (combine Xs o0) b) as [[x1 o1]|] eqn:EC; [|discriminate]. injection E as <- -> ->.
      assert (EX : nth_error Xs b = Some x /\ nth_error o0 b = Some o).
      { now apply combine_nth_inv. }
      destruct EX as (EX & EO). destruct (HR b x EX) as (r & Er & _ & _ & o' & Eo' & _ & Hpost). exists o'. split; [exact Eo'|]. cbn [fst snd].
      rewrite (to_2d_elem _ _ _ FY (nth_lt _ _ _ EX)). cbn [bind]. unfold o0 in EO. rewrite nth_error_map, Er in EO. injection EO as <-. exact Hpost. }
    rewrite MP. reflexivity.
Qed.
End Consistency.

(** ** Preprocessing steps keep the shape *)
Lemma map_rows_shape g F F' : (forall r r', length r = F -> g r = Ok r' -> length r' = F') ->
  forall T N x x', shaped T N F x -> map_rows g x = Ok x' -> shaped T N F' x'.
Proof.
  intros Hg T N x x' (L & H) M. unfold map_rows in M. apply mapM_Ok_iff in M. subst T. split; [symmetry; eapply Forall2_length; eauto|].
  induction M as [|a b x x' E M IH]; constructor; inversion H as [|? ? (HN & HF) HR]; subst.
  - apply mapM_Ok_iff in E. split; [symmetry; eapply Forall2_length; eauto|]. clear - HF E Hg. induction E; constructor; inversion HF; subst; eauto.
  - auto.
Qed.
Lemma shape_id : shape_uniform Ok.
Proof. intros T N F. exists F. intros x x' H E. injection E as <-. exact H. Qed.

Lemma list6 {A} (r : list A) : length r = 6%nat -> exists a b c d e f, r = [a; b; c; d; e; f].
Proof. intros H. do 7 (destruct r as [|? r]; try discriminate). eauto 10. Qed.
Lemma list9 {A} (r : list A) : length r = 9%nat -> exists a b c d e f g h i, r = [a; b; c; d; e; f; g; h; i].
Proof. intros H. do 10 (destruct r as [|? r]; try discriminate). repeat eexists. Qed.
Lemma list10 {A} (r : list A) : length r = 10%nat -> exists a b c d e f g h i j, r = [a; b; c; d; e; f; g; h; i; j].
Proof. intros H. do 11 (destruct r as [|? r]; try discriminate). repeat eexists. Qed.

Local Open Scope R_scope.
(** What the wrapped filter sees of a feature vector: the groups are scaled; their order is acc, dt, gyr, joint_axes. *)
Definition scaled (fa fd fg fj : R) (r : row) : row :=
  map (fun v => v * fa) (firstn 3 r) ++ map (fun v => v * fd) (firstn 1 (skipn 9 r)) ++
  map (fun v => v * fg) (firstn 3 (skipn 3 r)) ++ map (fun v => v * fj) (firstn 3 (skipn 6 r)).
Lemma scale_row_value factors fa fd fg fj r :
  dget String.eqb factors "acc"%string = Some fa -> dget String.eqb factors "gyr"%string = Some fg ->
  dget String.eqb factors "joint_axes"%string = Some fj -> dget String.eqb factors "dt"%string = Some fd ->
  scale_row factors r = if ((length r =? 6) || (length r =? 9) || (length r =? 10))%nat then Ok (scaled fa fd fg fj r) else Err EOther.
Proof.
  intros Ea Eg Ej Ed. unfold scale_row, slices, dgetE.
  destruct (Nat.eq_dec (length r) 6) as [E|N6]; [|destruct (Nat.eq_dec (length r) 9) as [E|N9]; [|destruct (Nat.eq_dec (length r) 10) as [E|N10]]].
  - destruct (list6 r E) as (a & b & c & d & e & f & ->). cbn [length Nat.eqb orb bind mapM fst snd firstn skipn map]. rewrite Ea. cbn [bind]. rewrite Eg. cbn [bind].
    reflexivity.
  - destruct (list9 r E) as (a & b & c & d & e & f & g & h & i & ->). cbn [length Nat.eqb orb bind mapM fst snd firstn skipn map].
    rewrite Ea. cbn [bind]. rewrite Eg. cbn [bind]. rewrite Ej. cbn [bind].
    reflexivity.
  - destruct (list10 r E) as (a & b & c & d & e & f & g & h & i & j & ->). cbn [length Nat.eqb orb bind mapM fst snd firstn skipn map].
    rewrite Ea. cbn [bind]. rewrite Eg. cbn [bind]. rewrite Ej. cbn [bind]. rewrite Ed. cbn [bind].
    reflexivity.
  - replace ((length r =? 6) || (length r =? 9) || (length r =? 10))%nat with false
      by (symmetry; rewrite !orb_false_iff, !Nat.eqb_neq; auto).
    do 11 (destruct r as [|? r]; try reflexivity; try (now contradict N6); try (now contradict N9); try (now contradict N10)).
Qed.
Lemma scale_row_length factors r r' : scale_row factors r = Ok r' -> length r' = length r.
Proof.
  unfold scale_row, slices, dgetE. intros H.
  destruct (Nat.eq_dec (length r) 6) as [E|N6]; [|destruct (Nat.eq_dec (length r) 9) as [E|N9]; [|destruct (Nat.eq_dec (length r) 10) as [E|N10]]].
  1: destruct (list6 r E) as (a & b & c & d & e & f & ->).
  2: destruct (list9 r E) as (a & b & c & d & e & f & g & h & i & ->).
  3: destruct (list10 r E) as (a & b & c & d & e & f & g & h & i & j & ->).
  4:{ exfalso. do 11 (destruct r as [|? r]; try discriminate; try (now contradict N6); try (now contradict N9); try (now contradict N10)). }
  all: cbn [length bind mapM fst snd firstn skipn map] in H; repeat (destruct (dget String.eqb factors _); cbn [bind] in H; [|discriminate]); injection H as <-; reflexivity.
Qed.
Lemma shape_scale factors : shape_uniform (map_rows (scale_row factors)).
Proof. intros T N F. exists F. apply map_rows_shape. intros r r' L H. apply scale_row_length in H. lia. Qed.
Lemma shape_add_ts Ts : shape_uniform (map_rows (add_ts_row Ts)).
Proof.
  intros T N F. exists (match Ts with None => F | Some _ => F + 1 end)%nat. apply map_rows_shape. intros r r' L H. unfold add_ts_row in H.
  destruct Ts; apply bind_Ok in H; destruct H as (_ & _ & H); injection H as <-; [rewrite app_length; cbn; lia | exact L].
Qed.

Section Wrappers.
Context {P ST : Type}.
Implicit Type f : @filter P ST.
Theorem C52_scale_consistent factors f : consistent f -> consistent (scale_x factors f).
Proof. apply C52_wrapper, shape_scale. Qed.
Theorem C52_add_ts_consistent Ts f : consistent f -> consistent (add_ts Ts f).
Proof. apply C52_wrapper, shape_add_ts. Qed.
Theorem C52_heading_consistent attr f : consistent f -> consistent (ground_truth_heading attr f).
Proof. apply C52_wrapper, shape_id. Qed.
Theorem C52_lpf_consistent cutoff samp ff f : consistent f -> consistent (lpf cutoff samp ff f).
Proof. apply C52_wrapper, shape_id. Qed.
Theorem C52_RING_consistent net lam Ts use_lpf add_Ts cutoff : consistent net -> consistent (@make_RING P ST net lam Ts use_lpf add_Ts cutoff).
Proof.
  intros H. unfold make_RING. destruct add_Ts, use_lpf;
    auto using C52_scale_consistent, C52_add_ts_consistent, C52_heading_consistent, C52_lpf_consistent.
Qed.
End Wrappers.

(** ** NoGraph *)
Section Chunks.
Context {A : Type}.
Lemma chunks_concat k (ls : list (list A)) : (0 < k)%nat -> Forall (fun l => length l = k) ls -> chunks k (concat ls) = ls.
Proof.
  intros K H. unfold chunks. assert (G : forall fuel, (length (concat ls) <= fuel)%nat -> chunks_fuel fuel k (concat ls) = ls); [|now apply G].
  induction H as [|l ls L H IH]; intros fuel Hf; [now destruct fuel|]. cbn [concat] in *. rewrite app_length in Hf.
  destruct fuel as [|fuel]; [lia|]. cbn [chunks_fuel]. destruct (l ++ concat ls) as [|a r] eqn:E.
  - apply app_eq_nil in E. destruct E as (-> & _). cbn in L. lia.
  - rewrite <- E. rewrite firstn_app, L, Nat.sub_diag, <- L, firstn_all. cbn [firstn]. rewrite app_nil_r.
    rewrite skipn_app, skipn_all, Nat.sub_diag. cbn [skipn app]. rewrite L, IH by lia. reflexivity.
Qed.
Lemma chunks_spec k n (l : list A) : (0 < k)%nat -> length l = (n * k)%nat ->
  length (chunks k l) = n /\ Forall (fun c => length c = k) (chunks k l) /\ concat (chunks k l) = l.
Proof.
  intros K. revert l. induction n as [|n IH]; intros l L.
  - destruct l; [|cbn in L; discriminate]. cbn. auto.
  - destruct (IH (skipn k l)) as (H1 & H2 & H3); [rewrite skipn_length, L; cbn; lia|].
    assert (E : chunks k l = firstn k l :: chunks k (skipn k l)).
    { rewrite <- (firstn_skipn k l) at 1. rewrite <- H3 at 1.
      change (firstn k l ++ concat (chunks k (skipn k l))) with (concat (firstn k l :: chunks k (skipn k l))).
      apply chunks_concat; [exact K|]. constructor; [rewrite firstn_length, L; cbn; lia | exact H2]. }
    rewrite E. cbn [length concat]. rewrite H1, H3, firstn_skipn. split; [reflexivity|]. split; [|reflexivity].
    constructor; [rewrite firstn_length, L; cbn; lia | exact H2].
Qed.
End Chunks.

(** Cut the features of the only link into pieces of [k]. *)
Definition unlink (k : nat) (o : arr3) : arr3 := map (fun step => chunks k (concat step)) o.
Lemma concat_shaped T M (o : arr3) : shaped T 1 M o -> length (concat o) = T /\ Forall (fun r => length r = M) (concat o).
Proof.
  intros (<- & H). induction H as [|s o (L & HF) H IH]; [cbn; auto|]. destruct s as [|r [|? ?]]; try discriminate.
  inversion HF; subst. destruct IH as (I1 & I2). cbn. split; [now rewrite I1 | constructor; auto].
Qed.
Lemma length_concat_all {A} M (ls : list (list A)) : Forall (fun l => length l = M) ls -> length (concat ls) = (length ls * M)%nat.
Proof. induction 1 as [|l ls L H IH]; [reflexivity|]. cbn. rewrite app_length, IH. lia. Qed.
Lemma unlink_spec k T N M o : (0 < k)%nat -> M = (N * k)%nat -> shaped T 1 M o ->
  shaped T N k (unlink k o) /\ flat3 (unlink k o) = flat3 o /\ flatten_links (unlink k o) = o.
Proof.
  intros K -> (<- & H). unfold unlink, flat3, flatten_links.
  induction H as [|s o (L & HF) H IH]; [split; [split; [reflexivity|constructor] | split; reflexivity]|]. destruct s as [|r [|? ?]]; try discriminate.
  inversion HF; subst. destruct IH as (I1 & I2 & I3). cbn [map concat app]. rewrite app_nil_r.
  destruct (chunks_spec k N r K ltac:(assumption)) as (C1 & C2 & C3). split; [|split].
  - destruct I1 as (I1 & I1'). split; [cbn; now rewrite <- I1 at 1; rewrite map_length | constructor; auto].
  - rewrite concat_app, C3, I2. reflexivity.
  - cbn [map]. rewrite C3, I3. reflexivity.
Qed.
Lemma shaped_nonempty T N F x : shaped T N F x -> length x = T /\ (T <> 0%nat -> nlinks x = N).
Proof. intros (L & H). split; [exact L|]. destruct x; cbn; [now subst|]. inversion H; tauto. Qed.

Lemma infer_spec T N M k : (0 < M)%nat -> infer (T * M) (T * N) = Ok k <-> (0 < T)%nat /\ (0 < N)%nat /\ M = (N * k)%nat.
Proof.
  intros HM. unfold infer. destruct (Nat.eqb_spec (T * N) 0) as [E|E].
  - split; [discriminate|]. intros (A & B & _). nia.
  - assert (T0 : T <> 0%nat) by nia. assert (N0 : N <> 0%nat) by nia.
    rewrite Nat.mul_mod_distr_l, Nat.div_mul_cancel_l by assumption.
    destruct (Nat.eqb_spec (T * (M mod N)) 0) as [D|D].
    + assert (D' : (M mod N = 0)%nat) by nia. split.
      * intros H. injection H as <-. split; [lia|]. split; [lia|]. apply Nat.div_exact; assumption.
      * intros (_ & _ & ->). f_equal. rewrite Nat.mul_comm. now apply Nat.div_mul.
    + split; [discriminate|]. intros (_ & _ & ->). exfalso. apply D. rewrite Nat.mul_comm with (n := N), Nat.mod_mul by assumption. lia.
Qed.
Lemma flat3_length T N F x : shaped T N F x -> length (flat3 x) = (T * (N * F))%nat.
Proof.
  intros (<- & H). unfold flat3. induction H as [|s x (L & HF) H IH]; [reflexivity|]. cbn [concat]. rewrite concat_app, app_length, IH.
  assert (E : length (concat s) = (length s * F)%nat) by now apply length_concat_all. rewrite L in E. rewrite E. cbn [length]. lia.
Qed.
Lemma reshape3_spec T N M o out : (0 < M)%nat -> shaped T 1 M o ->
  (reshape3 T N (flat3 o) = Ok out <-> (0 < T)%nat /\ (0 < N)%nat /\ exists k, M = (N * k)%nat /\ out = unlink k o).
Proof.
  intros HM SO. unfold reshape3. rewrite (flat3_length _ _ _ _ SO), Nat.mul_1_l.
  assert (G : forall k, M = (N * k)%nat -> (0 < N)%nat -> chunks N (chunks k (flat3 o)) = unlink k o).
  { intros k EM N0. assert (K : (0 < k)%nat) by nia. destruct (unlink_spec k T N M o K EM SO) as ((L & S1) & S2 & _). rewrite <- S2. unfold flat3.
    rewrite chunks_concat; [|exact K|]. 2:{ clear - S1. induction S1 as [|s l (_ & HF) H IH]; cbn; [constructor|]. apply Forall_app. auto. }
    apply chunks_concat; [lia|]. clear - S1. eapply Forall_impl; [|exact S1]. cbn. tauto. }
  split.
  - intros H. apply bind_Ok in H. destruct H as (k & I & H). apply infer_spec in I; [|exact HM]. destruct I as (T0 & N0 & EM).
    injection H as <-. repeat (split; [assumption|]). exists k. auto.
  - intros (T0 & N0 & k & EM & ->). assert (I : infer (T * M) (T * N) = Ok k) by (apply infer_spec; auto). rewrite I. cbn [bind]. now rewrite G.
Qed.
Lemma reshape4_spec T N M os outs : (0 < M)%nat -> Forall (shaped T 1 M) os -> os <> [] ->
  (reshape4 (length os) T N (concat (map flat3 os)) = Ok outs <-> (0 < T)%nat /\ (0 < N)%nat /\ exists k, M = (N * k)%nat /\ outs = map (unlink k) os).
Proof.
  intros HM SO NE. unfold reshape4.
  assert (LF : length (concat (map flat3 os)) = (length os * T * M)%nat).
  { rewrite (length_concat_all (T * M)); [rewrite map_length; lia|]. apply Forall_map. eapply Forall_impl; [|exact SO]. cbn.
    intros x H. rewrite (flat3_length _ _ _ _ H). lia. }
  rewrite LF. assert (B0 : (0 < length os)%nat) by (destruct os; [congruence|cbn; lia]).
  assert (G : forall k, M = (N * k)%nat -> (0 < N)%nat -> (0 < T)%nat -> chunks T (chunks N (chunks k (concat (map flat3 os)))) = map (unlink k) os).
  { intros k EM N0 T0. assert (K : (0 < k)%nat) by nia.
    assert (SU : Forall (shaped T N k) (map (unlink k) os)).
    { apply Forall_map. eapply Forall_impl; [|exact SO]. intros o Ho. now apply (unlink_spec k T N M o K EM Ho). }
    assert (EF : concat (map flat3 os) = concat (concat (concat (map (unlink k) os)))).
    { clear SU. induction SO as [|o os Ho SO IH]; [reflexivity|]. cbn [map concat]. destruct (unlink_spec k T N M o K EM Ho) as (_ & S2 & _).
      rewrite !concat_app. rewrite <- S2. unfold flat3 at 1. f_equal. destruct os as [|o' os]; [reflexivity|]. apply IH; [congruence| |cbn; lia].
      rewrite (length_concat_all (T * M)); [rewrite map_length; lia|]. apply Forall_map. eapply Forall_impl; [|exact SO]. cbn.
      intros x H. rewrite (flat3_length _ _ _ _ H). lia. }
    rewrite EF.
    assert (S1 : Forall (fun step => length step = N /\ Forall (fun r : row => length r = k) step) (concat (map (unlink k) os))).
    { clear - SU. induction SU as [|x l (_ & H) SU IH]; cbn; [constructor|]. apply Forall_app. auto. }
    rewrite chunks_concat; [|exact K|]. 2:{ clear - S1. induction S1 as [|s l (_ & HF) H IH]; cbn; [constructor|]. apply Forall_app. auto. }
    rewrite chunks_concat; [|lia|]. 2:{ eapply Forall_impl; [|exact S1]. cbn. tauto. }
    apply chunks_concat; [lia|]. eapply Forall_impl; [|exact SU]. intros x (L & _). exact L. }
  split.
  - intros H. apply bind_Ok in H. destruct H as (k & I & H). apply infer_spec in I; [|exact HM]. destruct I as (T0 & N0 & EM).
    assert (T1 : (0 < T)%nat) by nia. injection H as <-. repeat (split; [assumption|]). exists k. auto.
  - intros (T0 & N0 & k & EM & ->). assert (I : infer (length os * T * M) (length os * T * N) = Ok k) by (apply infer_spec; [exact HM|]; split; [nia|auto]).
    rewrite I. cbn [bind]. now rewrite G.
Qed.

Section NoGraph.
Context {P ST : Type}.
Implicit Type f : @filter P ST.
(** On single-link inputs the filter returns [M] output features per time step. *)
Definition one_link_output f (M : nat) : Prop :=
  forall T F x p s y lam o st, shaped T 1 F x -> f_unbatched f x p s y lam = Ok (o, st) -> shaped T 1 M o.
Lemma flatten_shaped T N F x : shaped T N F x -> shaped T 1 (N * F) (flatten_links x).
Proof.
  intros (<- & H). unfold flatten_links. split; [now rewrite map_length|]. apply Forall_map. eapply Forall_impl; [|exact H].
  intros s (L & HF). cbn [length]. split; [reflexivity|]. constructor; [|constructor].
  assert (E : length (concat s) = (length s * F)%nat) by now apply length_concat_all. now rewrite (L : @length (list R) s = N) in E.
Qed.

(** The wrapped filter gets one link that carries the features of all, the parents [-1], and everything else unchanged;
    its output is cut into one piece per link. *)
Theorem C52_no_graph M f normalize T N F x p s y lam out st : (0 < M)%nat -> one_link_output f M -> shaped T N F x -> (0 < T)%nat ->
  (f_unbatched (no_graph normalize f) x p s y lam = Ok (out, st) <->
   exists o k raw, f_unbatched f (flatten_links x) p s y (Some [(-1)%Z]) = Ok (o, st) /\ (0 < N)%nat /\ M = (N * k)%nat /\
     shaped T N k raw /\ flatten_links raw = o /\ quat_rows normalize raw = Ok out).
Proof.
  intros HM HO SX T0. cbn [f_unbatched no_graph]. destruct (shaped_nonempty _ _ _ _ SX) as (LX & NL). rewrite NL, LX by lia. split.
  - intros H. apply bind_Ok in H. destruct H as ([o st'] & Hf & H). cbn [fst snd] in H. apply bind_Ok in H. destruct H as (raw & HR & H).
    apply bind_Ok in H. destruct H as (out' & HQ & H). injection H as -> ->. pose proof (HO _ _ _ _ _ _ _ _ _ (flatten_shaped _ _ _ _ SX) Hf) as SO.
    apply (reshape3_spec T N M) in HR; [|assumption|assumption]. destruct HR as (_ & N0 & k & EM & ->).
    destruct (unlink_spec k T N M o ltac:(nia) EM SO) as (S1 & _ & S3). exists o, k, (unlink k o). auto 10.
  - intros (o & k & raw & Hf & N0 & EM & SR & ER & HQ). pose proof (HO _ _ _ _ _ _ _ _ _ (flatten_shaped _ _ _ _ SX) Hf) as SO.
    rewrite Hf. cbn [bind fst snd].
    assert (EU : raw = unlink k o).
    { rewrite <- ER. unfold unlink, flatten_links. rewrite map_map. destruct SR as (_ & SR). clear - SR EM HM. induction SR as [|a l (L & HF) H IH]; [reflexivity|].
      cbn [map]. f_equal; [|exact IH]. cbn [concat]. rewrite app_nil_r. symmetry. apply chunks_concat; [nia|exact HF]. }
    assert (HR : reshape3 T N (flat3 o) = Ok raw) by (apply (reshape3_spec T N M); [assumption|assumption|]; eauto).
    rewrite HR. cbn [bind]. rewrite HQ. reflexivity.
Qed.

Theorem C52_no_graph_consistent M normalize f : (0 < M)%nat -> one_link_output f M -> consistent f -> consistent (no_graph normalize f).
Proof.
  intros HM HO C T N F Xs p s y lam outs sts NE SH FS FY. cbn [f_batched f_unbatched no_graph].
  assert (SF : Forall (shaped T 1 (N * F)) (map flatten_links Xs)).
  { apply Forall_map. eapply Forall_impl; [|exact SH]. intros x H. now apply flatten_shaped. }
  pose proof (fun o st => C T 1%nat (N * F)%nat (map flatten_links Xs) p s y (Some [(-1)%Z]) o st) as C1.
  rewrite map_length in C1. specialize (fun o st => C1 o st ltac:(destruct Xs; [congruence|discriminate]) SF FS FY).
  assert (Sb : forall b x, nth_error Xs b = Some x -> shaped T N F x).
  { intros b x E. rewrite Forall_forall in SH. apply SH. eauto using nth_error_In. }
  destruct Xs as [|x0 Xs0] eqn:EX; [congruence|]. rewrite <- EX in *. rewrite EX at 1. rewrite jax_get_0. cbn [bind].
  assert (S0 : shaped T N F x0) by (apply (Sb 0%nat); now rewrite EX).
  destruct (Nat.eq_dec T 0) as [T0|T0].
  { (* no time steps: both fail *)
    split.
    - intros H. apply bind_Ok in H. destruct H as ([o st] & _ & H). cbn [fst snd] in H. unfold reshape4, infer in H.
      destruct S0 as (L0 & _). rewrite L0, T0, Nat.mul_0_r in H. cbn in H. discriminate.
    - intros (_ & _ & H). destruct (H 0%nat x0) as (o & st & _ & _ & H3); [now rewrite EX|]. apply bind_Ok in H3. destruct H3 as (r & _ & H3).
      unfold reshape3, infer in H3. destruct S0 as (L0 & _). rewrite L0, T0 in H3. cbn in H3. discriminate. }
  destruct (shaped_nonempty _ _ _ _ S0) as (L0 & NL0). rewrite L0, NL0 by assumption.
  split.
  - intros H. apply bind_Ok in H. destruct H as ([os st] & HB & H). cbn [fst snd] in H. apply bind_Ok in H. destruct H as (raws & HR & H).
    apply bind_Ok in H. destruct H as (outs' & HQ & H). injection H as -> ->.
    apply C1 in HB. destruct HB as (LO & LS & HB).
    assert (SO : Forall (shaped T 1 M) os).
    { apply Forall_forall. intros o I. apply In_nth_error in I. destruct I as (b & E). destruct (same_length_nth os Xs b o (eq_sym LO) E) as (x & Ex).
      destruct (HB b (flatten_links x)) as (o' & st' & E1 & _ & E3); [now rewrite nth_error_map, Ex|]. rewrite E in E1. injection E1 as <-.
      eapply HO; [|exact E3]. apply flatten_shaped. eapply Sb; eauto. }
    assert (NO : os <> []) by (intros ->; rewrite EX in LO; discriminate).
    rewrite <- LO in HR. apply (reshape4_spec T N M) in HR; [|assumption|assumption|assumption]. destruct HR as (_ & N0 & k & EM & ->).
    apply mapM_spec in HQ. rewrite map_length in HQ. destruct HQ as (LQ & HQ). split; [lia|]. split; [assumption|].
    intros b x E. destruct (HB b (flatten_links x)) as (o & st' & E1 & E2 & E3); [now rewrite nth_error_map, E|].
    destruct (HQ b (unlink k o)) as (out & E4 & E5); [now rewrite nth_error_map, E1|]. exists out, st'. repeat (split; [assumption|]).
    rewrite E3. cbn [bind fst snd]. destruct (shaped_nonempty _ _ _ _ (Sb _ _ E)) as (Lx & NLx). rewrite Lx, NLx by assumption.
    assert (So : shaped T 1 M o) by (rewrite Forall_forall in SO; apply SO; eauto using nth_error_In).
    assert (HR : reshape3 T N (flat3 o) = Ok (unlink k o)) by (apply (reshape3_spec T N M); [assumption|assumption|]; split; [lia|]; eauto).
    rewrite HR. cbn [bind]. rewrite E5. reflexivity.
  - intros (LO & LS & H).
    assert (N0 : (0 < N)%nat /\ exists k, M = (N * k)%nat).
    { destruct (H 0%nat x0) as (o & st & _ & _ & H3); [now rewrite EX|]. rewrite L0, NL0 in H3 by assumption.
      apply bind_Ok in H3. destruct H3 as ([o' st'] & Hf & H3). apply bind_Ok in H3. destruct H3 as (raw & HR & _). cbn [fst snd] in HR.
      apply (reshape3_spec T N M) in HR; [|assumption|eapply HO; [|exact Hf]; apply flatten_shaped; exact S0]. destruct HR as (_ & N0 & k & EM & _). eauto. }
    destruct N0 as (N0 & k & EM).
    destruct (choose_list (fun b x (o : arr3) => exists out st, nth_error outs b = Some out /\ nth_error sts b = Some st /\
       f_unbatched f (flatten_links x) p (elem s b) (elem y b) (Some [(-1)%Z]) = Ok (o, st) /\ quat_rows normalize (unlink k o) = Ok out) Xs) as (os & LOs & HOs).
    { intros b x E. destruct (H b x E) as (out & st & E1 & E2 & E3). destruct (shaped_nonempty _ _ _ _ (Sb _ _ E)) as (Lx & NLx).
      rewrite Lx, NLx in E3 by assumption.
      apply bind_Ok in E3. destruct E3 as ([o' st'] & Hf & H3). apply bind_Ok in H3. destruct H3 as (raw & HR & H3). cbn [fst snd] in HR, H3.
      apply bind_Ok in H3. destruct H3 as (out' & HQ & H3). injection H3 as -> ->.
      apply (reshape3_spec T N M) in HR; [|assumption|eapply HO; [|exact Hf]; apply flatten_shaped; eauto]. destruct HR as (_ & _ & k' & EM' & ->).
      assert (k' = k) by nia. subst k'. exists o', out, st. auto. }
    assert (HB : f_batched f (map flatten_links Xs) p s y (Some [(-1)%Z]) = Ok (os, sts)).
    { apply C1. repeat (split; [assumption|]). intros b x' E. rewrite nth_error_map in E. destruct (nth_error Xs b) as [x|] eqn:Ex; [|discriminate].
      injection E as <-. destruct (HOs b x Ex) as (o & Eo & out & st & _ & E2 & E3 & _). exists o, st. auto. }
    assert (SO : Forall (shaped T 1 M) os).
    { apply Forall_forall. intros o I. apply In_nth_error in I. destruct I as (b & E). destruct (same_length_nth os Xs b o (eq_sym LOs) E) as (x & Ex).
      destruct (HOs b x Ex) as (o' & E1 & _ & st & _ & _ & E3 & _). rewrite E in E1. injection E1 as <-.
      eapply HO; [|exact E3]. apply flatten_shaped. eapply Sb; eauto. }
    assert (NO : os <> []) by (intros ->; rewrite EX in LOs; discriminate).
    rewrite HB. cbn [bind fst snd]. rewrite <- LOs.
    assert (HR : reshape4 (length os) T N (concat (map flat3 os)) = Ok (map (unlink k) os)).
    { apply (reshape4_spec T N M); [assumption|assumption|assumption|]. split; [lia|]. eauto. }
    rewrite HR. cbn [bind].
    assert (HQ : mapM (quat_rows normalize) (map (unlink k) os) = Ok outs).
    { apply mapM_spec. rewrite map_length. split; [lia|]. intros b r E. rewrite nth_error_map in E. destruct (nth_error os b) as [o|] eqn:Eo; [|discriminate].
      injection E as <-. destruct (same_length_nth os Xs b o (eq_sym LOs) Eo) as (x & Ex). destruct (HOs b x Ex) as (o' & E1 & out & st & E2 & _ & _ & E4).
      rewrite Eo in E1. injection E1 as <-. eauto. }
    rewrite HQ. reflexivity.
Qed.
Theorem C52_RNNO_consistent M net rq ev sx samp cutoff : (0 < M)%nat -> one_link_output net M -> consistent net ->
  consistent (@make_RNNO P ST net rq ev sx samp cutoff).
Proof.
  intros HM HO H. unfold make_RNNO. pose proof (C52_no_graph_consistent M rq net HM HO H).
  destruct rq, ev, sx; cbn [andb]; auto using C52_scale_consistent, C52_heading_consistent, C52_lpf_consistent.
Qed.
End NoGraph.

(** ** What the wrapped filter sees, and what becomes of its output *)
Lemma mapM_total {A B} (g : A -> result B) h l : Forall (fun a => g a = Ok (h a)) l -> mapM g l = Ok (map h l).
Proof. induction 1 as [|a l E H IH]; [reflexivity|]. cbn [mapM map]. rewrite E. cbn [bind]. rewrite IH. reflexivity. Qed.
Lemma map_rows_total g h T N F x : (forall r, length r = F -> g r = Ok (h r)) -> shaped T N F x -> map_rows g x = Ok (map (map h) x).
Proof.
  intros G (_ & H). unfold map_rows. apply mapM_total. eapply Forall_impl; [|exact H]. intros s (_ & HF). apply mapM_total.
  eapply Forall_impl; [|exact HF]. auto.
Qed.
Lemma bind_ret {A} (r : result A) : (do a <- r; Ok a) = r.
Proof. now destruct r. Qed.
Lemma bind_pair {A B} (r : result (A * B)) : (do a <- r; do b <- Ok (fst a); Ok (b, snd a)) = r.
Proof. destruct r as [[a b]|]; reflexivity. Qed.

Section Content.
Context {P ST : Type}.
Implicit Type f : @filter P ST.

(** ScaleX: the wrapped filter gets the scaled features in the order acc, dt, gyr, joint_axes, and everything else unchanged. *)
Theorem C52_scale_x factors fa fd fg fj f T N F x p s y lam :
  dget String.eqb factors "acc"%string = Some fa -> dget String.eqb factors "gyr"%string = Some fg ->
  dget String.eqb factors "joint_axes"%string = Some fj -> dget String.eqb factors "dt"%string = Some fd ->
  (F = 6 \/ F = 9 \/ F = 10)%nat -> shaped T N F x ->
  f_unbatched (scale_x factors f) x p s y lam = f_unbatched f (map (map (scaled fa fd fg fj)) x) p s y lam.
Proof.
  intros Ea Eg Ej Ed HF SX. cbn [f_unbatched scale_x wrap].
  rewrite (map_rows_total _ (scaled fa fd fg fj) T N F); [|intros r L; rewrite (scale_row_value _ fa fd fg fj) by assumption|exact SX].
  - cbn [bind]. unfold no_post. apply bind_pair.
  - replace ((length r =? 6) || (length r =? 9) || (length r =? 10))%nat with true; [reflexivity|].
    symmetry. rewrite L. destruct HF as [->|[->| ->]]; reflexivity.
Qed.
(** Without dt and without scaling this is the identity; with dt it is not: the last feature becomes the fourth. *)
Theorem C52_scale_order_6_9 r : (length r = 6 \/ length r = 9)%nat -> scaled 1 1 1 1 r = r.
Proof.
  intros [E|E]; [destruct (list6 r E) as (a & b & c & d & e & f & ->) | destruct (list9 r E) as (a & b & c & d & e & f & g & h & i & ->)];
    cbv [scaled firstn skipn map app]; rewrite ?Rmult_1_r; reflexivity.
Qed.
Theorem C52_scale_order_refuted : exists r, length r = 10%nat /\ scaled 1 1 1 1 r <> r.
Proof.
  exists [0; 0; 0; 0; 0; 0; 0; 0; 0; 1]. split; [reflexivity|]. cbv [scaled firstn skipn map app]. intros H. injection H. intros. lra.
Qed.

(** AddTs: the sampling interval is the tenth feature of every link at every time. *)
Theorem C52_add_ts t f T N x p s y lam : shaped T N 9 x ->
  f_unbatched (add_ts (Some t) f) x p s y lam = f_unbatched f (map (map (fun r => r ++ [t])) x) p s y lam.
Proof.
  intros SX. cbn [f_unbatched add_ts wrap]. rewrite (map_rows_total _ (fun r => r ++ [t]) T N 9); [|intros r L|exact SX].
  - cbn [bind]. unfold no_post. apply bind_pair.
  - unfold add_ts_row. rewrite L. cbn [Nat.eqb assert_ bind]. now rewrite Rmult_1_l.
Qed.
Theorem C52_add_ts_none f T N x p s y lam : shaped T N 10 x -> f_unbatched (add_ts None f) x p s y lam = f_unbatched f x p s y lam.
Proof.
  intros SX. cbn [f_unbatched add_ts wrap]. rewrite (map_rows_total _ (fun r => r) T N 10); [|intros r L|exact SX].
  - cbn [bind]. rewrite (map_ext (map (fun r : row => r)) (fun s => s)), map_id by apply map_id. unfold no_post. apply bind_pair.
  - unfold add_ts_row. rewrite L. reflexivity.
Qed.
(** Other numbers of features are refused. *)
Theorem C52_add_ts_refuses Ts f T N F x p s y lam : shaped T N F x -> (0 < T)%nat -> (0 < N)%nat ->
  F <> (match Ts with None => 10 | Some _ => 9 end)%nat -> f_unbatched (add_ts Ts f) x p s y lam = Err EAssertion.
Proof.
  intros (L & SX) T0 N0 HF. cbn [f_unbatched add_ts wrap]. destruct x as [|a x]; [cbn in L; lia|]. inversion SX as [|? ? (LN & HR) _]; subst.
  destruct a as [|r a]; [cbn in N0; lia|]. inversion HR; subst. unfold map_rows. cbn [mapM]. unfold add_ts_row at 1.
  destruct Ts; rewrite (proj2 (Nat.eqb_neq _ _)) by assumption; reflexivity.
Qed.

(** GroundTruthHeading without a reference: nothing changes. *)
Theorem C52_heading_none attr f x p s lam : (lam <> None \/ exists l, attr = Ok l) ->
  f_unbatched (ground_truth_heading attr f) x p s None lam = f_unbatched f x p s None lam.
Proof.
  intros H. cbn [f_unbatched ground_truth_heading wrap bind]. unfold heading_post.
  destruct lam as [l|].
  - cbn [bind]. apply bind_pair.
  - destruct H as [H|(l & ->)]; [congruence|]. cbn [bind]. apply bind_pair.
Qed.
(** With a reference: state unchanged; root links get the heading of the reference, all others are as the wrapped filter gave them. *)
Theorem C52_heading attr f x p s y lam l T N out st :
  (lam = Some l \/ (lam = None /\ attr = Ok (Some l))) -> length l = N -> shaped T N 4 y ->
  (forall o st, f_unbatched f x p s (Some y) lam = Ok (o, st) -> shaped T N 4 o) ->
  (f_unbatched (ground_truth_heading attr f) x p s (Some y) lam = Ok (out, st) <->
   exists o, f_unbatched f x p s (Some y) lam = Ok (o, st) /\ length out = T /\
     forall t step, nth_error o t = Some step -> exists step', nth_error out t = Some step' /\ length step' = N /\
       forall j r, nth_error step j = Some r -> exists ystep yr r', nth_error y t = Some ystep /\ nth_error ystep j = Some yr /\ nth_error step' j = Some r' /\
         if (nth j l 0 =? -1)%Z then exists a b, yr = row_of_quat a /\ r = row_of_quat b /\ r' = row_of_quat (quat_transfer_heading a b) else r' = r).
Proof.
  intros HL LN SY SO. cbn [f_unbatched ground_truth_heading wrap bind].
  assert (R4 : forall r : row, length r = 4%nat -> exists q, quat_of_row r = Ok q /\ r = row_of_quat q).
  { intros r L. do 5 (destruct r as [|? r]; try discriminate). eexists. split; reflexivity. }
  assert (STEP : forall ys os, length ys = N -> length os = N -> Forall (fun r : row => length r = 4%nat) ys -> Forall (fun r : row => length r = 4%nat) os ->
     forall os', heading_step l ys os = Ok os' <-> length os' = N /\
       forall j r, nth_error os j = Some r -> exists yr r', nth_error ys j = Some yr /\ nth_error os' j = Some r' /\
         if (nth j l 0 =? -1)%Z then exists a b, yr = row_of_quat a /\ r = row_of_quat b /\ r' = row_of_quat (quat_transfer_heading a b) else r' = r).
  { intros ys os LY LO FY FO os'. unfold heading_step. rewrite mapM_spec, enum_length, LO.
    split; intros (A & B); (split; [exact A|]).
    - intros j r E. destruct (B j (j, r)) as (r' & E' & Hr); [now rewrite enum_nth, E|]. cbn [fst snd] in Hr.
      destruct (same_length_nth os ys j r) as (yr & Ey); [congruence|exact E|]. exists yr, r'. repeat (split; [assumption|]).
      pose proof (nth_lt _ _ _ E) as Hj. rewrite (nth_error_nth' l 0%Z) in Hr by lia. rewrite Forall_forall in FY, FO.
      destruct (Z.eqb_spec (nth j l 0%Z) (-1)) as [Ep|Ep].
      + rewrite Ep, (jax_get_in _ _ _ Ey) in Hr. cbn [bind] in Hr. unfold heading_row in Hr.
        destruct (R4 yr) as (a & Ea & ->); [eauto using nth_error_In|]. destruct (R4 r) as (b & Eb & ->); [eauto using nth_error_In|].
        rewrite Ea, Eb in Hr. cbn [bind] in Hr. injection Hr as <-. eauto.
      + destruct (nth j l 0%Z) as [|q|[q|q|]]; try congruence; now injection Hr as <-.
    - intros j [i r] E. rewrite enum_nth in E. destruct (nth_error os j) as [r0|] eqn:E0; [|discriminate]. injection E as <- ->.
      destruct (B j r E0) as (yr & r' & Ey & Er & Hr). exists r'. split; [exact Er|]. cbn [fst snd].
      pose proof (nth_lt _ _ _ E0) as Hj. rewrite (nth_error_nth' l 0%Z) by lia.
      destruct (Z.eqb_spec (nth j l 0%Z) (-1)) as [Ep|Ep].
      + rewrite Ep, (jax_get_in _ _ _ Ey). cbn [bind]. destruct Hr as (a & b & -> & -> & ->). now destruct a, b.
      + subst r'. destruct (nth j l 0%Z) as [|q|[q|q|]]; try congruence; reflexivity. }
  assert (HP : forall o, shaped T N 4 o -> forall out, heading_post attr x (Some y) lam o = Ok out <->
     (length out = T /\ forall t step, nth_error o t = Some step -> exists step', nth_error out t = Some step' /\ length step' = N /\
       forall j r, nth_error step j = Some r -> exists ystep yr r', nth_error y t = Some ystep /\ nth_error ystep j = Some yr /\ nth_error step' j = Some r' /\
         if (nth j l 0 =? -1)%Z then exists a b, yr = row_of_quat a /\ r = row_of_quat b /\ r' = row_of_quat (quat_transfer_heading a b) else r' = r)).
  { intros o (LO & So) out0. unfold heading_post. assert (EL : match lam with Some l => Ok (Some l) | None => attr end = Ok (Some l)) by (destruct HL as [->|(-> & ->)]; reflexivity).
    rewrite EL. cbn [bind]. destruct SY as (LY & Sy). rewrite LY, LO, Nat.eqb_refl. cbn [negb]. etransitivity; [apply mapM_spec|]. rewrite combine_length, LY, LO, Nat.min_id.
    rewrite Forall_forall in Sy, So.
    split; intros (A & B); (split; [exact A|]).
    - intros t step E. destruct (same_length_nth o y t step) as (ys & Ey); [congruence|exact E|].
      destruct (B t (ys, step)) as (os' & E' & Hs); [now apply combine_nth_error|]. cbn [fst snd] in Hs.
      destruct (Sy ys) as (Y1 & Y2); [eauto using nth_error_In|]. destruct (So step) as (O1 & O2); [eauto using nth_error_In|].
      apply STEP in Hs; try assumption. destruct Hs as (L' & Hs). exists os'. repeat (split; [assumption|]). intros j r Ej.
      destruct (Hs j r Ej) as (yr & r' & H1 & H2 & H3). exists ys, yr, r'. auto.
    - intros t [ys step] E. apply combine_nth_inv in E. destruct E as (Ey & Eo). destruct (B t step Eo) as (os' & E' & L' & H). exists os'. split; [exact E'|]. cbn [fst snd].
      destruct (Sy ys) as (Y1 & Y2); [eauto using nth_error_In|]. destruct (So step) as (O1 & O2); [eauto using nth_error_In|].
      apply STEP; try assumption. split; [assumption|]. intros j r Ej. destruct (H j r Ej) as (ys2 & yr & r' & H1 & H2 & H3). assert (ys2 = ys) by congruence. subst ys2. eauto. }
  split.
  - intros H. apply bind_Ok in H. destruct H as ([o st'] & Hf & H). cbn [fst snd] in H. apply bind_Ok in H. destruct H as (out' & Hp & H). injection H as -> ->.
    exists o. split; [exact Hf|]. apply HP; [|exact Hp]. eauto.
  - intros (o & Hf & H). rewrite Hf. cbn [bind fst snd]. apply HP in H; [|eauto]. rewrite H. reflexivity.
Qed.

(** LPF: every link's sequence of orientations is low-pass filtered on its own. *)
Lemma lowpass_pass_len c fs qs : length (lowpass_pass c fs qs) = length qs.
Proof.
  unfold lowpass_pass. cbv zeta. destruct qs as [|q qs]; [reflexivity|]. rewrite map_length. cbn [length]. f_equal.
  generalize (2 * PI * c / fs / (1 + 2 * PI * c / fs)). intros al. revert q. induction qs as [|x qs IH]; intros q; [reflexivity|]. cbn [lowpass_loop]. cbv zeta. cbn [length]. now rewrite IH.
Qed.
Lemma lowpass_len c fs ff qs : length (quat_lowpassfilter c fs ff qs) = length qs.
Proof. unfold quat_lowpassfilter. destruct ff; rewrite ?rev_length, ?lowpass_pass_len, ?rev_length, ?lowpass_pass_len; reflexivity. Qed.
Lemma row4 (r : row) : length r = 4%nat -> exists q, quat_of_row r = Ok q /\ r = row_of_quat q.
Proof. intros L. do 5 (destruct r as [|? r]; try discriminate). eexists. split; reflexivity. Qed.
Lemma quat_of_row_of q : quat_of_row (row_of_quat q) = Ok q.
Proof. now destruct q. Qed.
Lemma series_spec T N o j qs : shaped T N 4 o -> (j < N)%nat ->
  (series o j = Ok qs <-> length qs = T /\ forall t step, nth_error o t = Some step -> exists q, nth_error qs t = Some q /\ nth_error step j = Some (row_of_quat q)).
Proof.
  intros (L & S) Hj. unfold series. rewrite mapM_spec, L. rewrite Forall_forall in S.
  split; intros (A & B); (split; [exact A|]); intros t step E; destruct (S step) as (LS & FS); [eauto using nth_error_In| |eauto using nth_error_In|];
    (destruct (nth_error_at step j) as (r & Er); [lia|]); destruct (B t step E) as (q & Eq & H).
  - exists q. split; [exact Eq|]. rewrite (jax_get_in _ _ _ Er) in H. cbn [bind] in H. rewrite Forall_forall in FS.
    destruct (row4 r) as (q' & Hq & ->); [eauto using nth_error_In|]. rewrite Hq in H. injection H as <-. exact Er.
  - exists q. split; [exact Eq|]. rewrite (jax_get_in _ _ _ H). cbn [bind]. apply quat_of_row_of.
Qed.
Lemma series_exists T N o j : shaped T N 4 o -> (j < N)%nat -> exists qs, series o j = Ok qs /\ length qs = T.
Proof.
  intros SO Hj. destruct (choose_list (fun _ (step : list row) q => nth_error step j = Some (row_of_quat q)) o) as (qs & LQ & HQ).
  { intros t step E. destruct SO as (_ & S). rewrite Forall_forall in S. destruct (S step) as (LS & FS); [eauto using nth_error_In|].
    destruct (nth_error_at step j) as (r & Er); [lia|]. rewrite Forall_forall in FS. destruct (row4 r) as (q' & Hq & ->); [eauto using nth_error_In|]. eauto. }
  exists qs. destruct SO as (L & S). split; [|lia]. apply (series_spec T N); [split; assumption|assumption|]. split; [lia|]. exact HQ.
Qed.
Lemma lowpass_links_spec c fs ff T N o : (0 < T)%nat -> shaped T N 4 o ->
  exists out, lowpass_links c fs ff o = Ok out /\ shaped T N 4 out /\
    forall j, (j < N)%nat -> exists qs, series o j = Ok qs /\ series out j = Ok (quat_lowpassfilter c fs ff qs).
Proof.
  intros T0 SO. destruct (shaped_nonempty _ _ _ _ SO) as (LO & NL). destruct o as [|y0 o0] eqn:EO; [cbn in LO; lia|]. cbn [nlinks] in NL.
  unfold lowpass_links. rewrite <- EO in *. rewrite NL by lia.
  destruct (choose_list (fun j (_ : nat) col => exists qs, series o j = Ok qs /\ col = quat_lowpassfilter c fs ff qs) (seq 0 N)) as (cols & LC & HC).
  { intros j j' E. pose proof (nth_lt _ _ _ E) as Hj. rewrite seq_length in Hj. destruct (series_exists T N o j SO Hj) as (qs & Hq & _). eauto. }
  rewrite seq_length in LC.
  assert (SEQ : forall n i, (i < n)%nat -> nth_error (seq 0 n) i = Some i).
  { intros n i Hi. rewrite (nth_error_nth' _ 0%nat) by (rewrite seq_length; lia). now rewrite seq_nth. }
  assert (MC : mapM (fun j => do s <- series o j; Ok (quat_lowpassfilter c fs ff s)) (seq 0 N) = Ok cols).
  { apply mapM_spec. rewrite seq_length. split; [exact LC|]. intros b j E. pose proof (nth_lt _ _ _ E) as Hj. rewrite seq_length in Hj.
    rewrite SEQ in E by lia. injection E as <-. destruct (HC b b (SEQ _ _ Hj)) as (col & Ec & qs & Hq & ->). exists (quat_lowpassfilter c fs ff qs). split; [exact Ec|].
    rewrite Hq. reflexivity. }
  rewrite MC. cbn [bind]. rewrite LO.
  assert (LCC : forall col, In col cols -> length col = T).
  { intros col I. apply In_nth_error in I. destruct I as (j & E). pose proof (nth_lt _ _ _ E) as Hj. rewrite LC in Hj.
    destruct (HC j j (SEQ _ _ Hj)) as (col' & Ec & qs & Hq & Hcol). assert (col = col') by congruence. subst col' col. rewrite lowpass_len.
    destruct (series_exists T N o j SO Hj) as (qs' & Hq' & Lq). congruence. }
  destruct (choose_list (fun t (_ : nat) step => mapM (fun col => do q <- jax_get col (Z.of_nat t); Ok (row_of_quat q)) cols = Ok step) (seq 0 T)) as (out & LOut & HOut).
  { intros t t' E. pose proof (nth_lt _ _ _ E) as Ht. rewrite seq_length in Ht.
    destruct (choose_list (fun _ (col : list quat) r => exists q, nth_error col t = Some q /\ r = row_of_quat q) cols) as (step & LS & HS).
    { intros j col Ec. destruct (nth_error_at col t) as (q & Eq); [rewrite LCC; eauto using nth_error_In|]. eauto. }
    exists step. apply mapM_spec. split; [exact LS|]. intros j col Ec. destruct (HS j col Ec) as (r & Er & q & Eq & ->). exists (row_of_quat q). split; [exact Er|].
    rewrite (jax_get_in _ _ _ Eq). reflexivity. }
  rewrite seq_length in LOut. exists out.
  assert (ELT : forall t step, nth_error out t = Some step -> length step = N /\ forall j, (j < N)%nat -> exists col q, nth_error cols j = Some col /\ nth_error col t = Some q /\ nth_error step j = Some (row_of_quat q)).
  { intros t step E. pose proof (nth_lt _ _ _ E) as Ht. rewrite LOut in Ht. destruct (HOut t t (SEQ _ _ Ht)) as (step' & E' & M).
    assert (step' = step) by congruence. subst step'. apply mapM_spec in M. destruct M as (LM & M). split; [lia|].
    intros j Hj. destruct (nth_error_at cols j) as (col & Ec); [lia|]. destruct (M j col Ec) as (r & Er & Hr).
    destruct (nth_error_at col t) as (q & Eq); [rewrite LCC; eauto using nth_error_In|]. rewrite (jax_get_in _ _ _ Eq) in Hr. injection Hr as <-. exists col, q. auto. }
  assert (SOut : shaped T N 4 out).
  { split; [exact LOut|]. apply Forall_forall. intros step I. apply In_nth_error in I. destruct I as (t & E). destruct (ELT t step E) as (LS & H). split; [exact LS|].
    apply Forall_forall. intros r Ir. apply In_nth_error in Ir. destruct Ir as (j & Ej). pose proof (nth_lt _ _ _ Ej) as Hj. rewrite LS in Hj.
    destruct (H j Hj) as (col & q & _ & _ & Er). assert (r = row_of_quat q) by congruence. subst r. reflexivity. }
  split; [|split; [exact SOut|]].
  - apply mapM_spec. rewrite seq_length. split; [exact LOut|]. intros b t E. pose proof (nth_lt _ _ _ E) as Ht. rewrite seq_length in Ht.
    rewrite SEQ in E by lia. injection E as <-. exact (HOut b b (SEQ _ _ Ht)).
  - intros j Hj. destruct (HC j j (SEQ _ _ Hj)) as (col & Ec & qs & Hq & Hcol). exists qs. split; [exact Hq|]. rewrite <- Hcol.
    apply (series_spec T N); [exact SOut|exact Hj|]. split; [apply LCC; eauto using nth_error_In|]. intros t step E.
    destruct (ELT t step E) as (_ & H). destruct (H j Hj) as (col' & q & Ec' & Eq & Er). assert (col' = col) by congruence. subst col'. eauto.
Qed.
Theorem C52_lpf cutoff fs ff f T N x p s y lam o st : (0 < T)%nat -> f_unbatched f x p s y lam = Ok (o, st) -> shaped T N 4 o ->
  exists out, f_unbatched (lpf cutoff (Some fs) ff f) x p s y lam = Ok (out, st) /\ shaped T N 4 out /\
    forall j, (j < N)%nat -> exists qs, series o j = Ok qs /\ series out j = Ok (quat_lowpassfilter cutoff fs ff qs).
Proof.
  intros T0 Hf SO. cbn [f_unbatched lpf wrap bind]. rewrite Hf. cbn [bind fst snd]. unfold lpf_post. cbn [bind].
  destruct (lowpass_links_spec cutoff fs ff T N o T0 SO) as (out & E & S & H). exists out. rewrite E. auto.
Qed.
(** Without a given rate it is the reciprocal of the last feature of the first link at the first time step. *)
Theorem C52_lpf_detects cutoff ff f T N x p s y lam a b r0 dt : shaped T N 10 x -> x = ((r0 ++ [dt]) :: a) :: b ->
  f_unbatched (lpf cutoff None ff f) x p s y lam = f_unbatched (lpf cutoff (Some (1 / dt)) ff f) x p s y lam.
Proof.
  intros (L & S) E. cbn [f_unbatched lpf wrap bind]. destruct (f_unbatched f x p s y lam) as [[o st]|e]; cbn [bind fst snd]; [|reflexivity].
  unfold lpf_post, detected_rate. rewrite E in S |- *. rewrite !jax_get_0. cbn [bind]. rewrite jax_get_0. cbn [bind].
  inversion S as [|? ? (_ & HR) _]; subst. inversion HR as [|? ? HL _]; subst. rewrite HL. cbn [Nat.eqb assert_ bind]. rewrite jax_get_last. reflexivity.
Qed.

(** ring.RING: the network sees acc / 9.81, 10 Ts, gyr / 2.2, joint_axes / 0.57; parameters, state and lam arrive unchanged. *)
Theorem C52_ring_input net own_lam t use_lpf cutoff T N x p s lam r : shaped T N 9 x ->
  f_unbatched (make_RING net own_lam (Some t) use_lpf true cutoff) x p s None lam = Ok r ->
  exists o, f_unbatched (P := P) (ST := ST) net (map (map (fun r => map (fun v => v * (1 / (981 / 100))) (firstn 3 r) ++ [t * 10] ++
      map (fun v => v * (1 / (22 / 10))) (firstn 3 (skipn 3 r)) ++ map (fun v => v * (1 / (57 / 100))) (skipn 6 r))) x) p s None lam = Ok (o, snd r) /\
    (use_lpf = false -> fst r = o).
Proof.
  intros SX. unfold make_RING. rewrite (C52_add_ts t _ T N) by exact SX. rewrite C52_heading_none by eauto.
  assert (SX' : shaped T N 10 (map (map (fun r : row => r ++ [t])) x)).
  { destruct SX as (L & S). split; [now rewrite map_length|]. apply Forall_map. eapply Forall_impl; [|exact S]. intros st (LN & HF). split; [now rewrite map_length|].
    apply Forall_map. eapply Forall_impl; [|exact HF]. cbn beta. intros r0 Hr. rewrite app_length, Hr. reflexivity. }
  assert (EI : map (map (scaled (1 / (981 / 100)) 10 (1 / (22 / 10)) (1 / (57 / 100)))) (map (map (fun r : row => r ++ [t])) x) =
    map (map (fun r => map (fun v => v * (1 / (981 / 100))) (firstn 3 r) ++ [t * 10] ++
      map (fun v => v * (1 / (22 / 10))) (firstn 3 (skipn 3 r)) ++ map (fun v => v * (1 / (57 / 100))) (skipn 6 r))) x).
  { rewrite map_map. destruct SX as (_ & S). apply map_ext_in. intros st I. rewrite map_map. apply map_ext_in. intros r0 I0. rewrite Forall_forall in S.
    destruct (S st I) as (_ & HF). rewrite Forall_forall in HF. destruct (list9 r0 (HF r0 I0)) as (a & b & c & d & e & f & g & h & i & ->). reflexivity. }
  set (x1 := map (map (fun r : row => r ++ [t])) x) in *.
  assert (SC : f_unbatched (scale_x default_factors net) x1 p s None lam = f_unbatched net (map (map (scaled (1 / (981 / 100)) 10 (1 / (22 / 10)) (1 / (57 / 100)))) x1) p s None lam).
  { apply (C52_scale_x default_factors _ _ _ _ net T N 10); try reflexivity; auto. }
  rewrite EI in SC. rewrite <- SC. clear SC EI. intros H. destruct use_lpf.
  - cbn [f_unbatched lpf wrap bind] in H. apply bind_Ok in H. destruct H as ([o st] & Hf & H). cbn [fst snd] in H. apply bind_Ok in H. destruct H as (out & _ & H).
    injection H as <-. exists o. split; [exact Hf|discriminate].
  - destruct r as [o st]. exists o. split; [exact H|reflexivity].
Qed.
(** Each link's orientations are filtered with the cutoff frequency, at the rate 1 / Ts. *)
Theorem C52_ring_lowpass net own_lam t cutoff T N x p s lam o st : shaped T N 9 x -> (0 < T)%nat ->
  f_unbatched (P := P) (ST := ST) (make_RING net own_lam (Some t) false true cutoff) x p s None lam = Ok (o, st) -> shaped T N 4 o ->
  exists out, f_unbatched (make_RING net own_lam (Some t) true true cutoff) x p s None lam = Ok (out, st) /\ shaped T N 4 out /\
    forall j, (j < N)%nat -> exists qs, series o j = Ok qs /\ series out j = Ok (quat_lowpassfilter cutoff (1 / t) true qs).
Proof.
  intros SX T0. unfold make_RING. rewrite !(C52_add_ts t _ T N) by exact SX. rewrite !C52_heading_none by eauto. intros H SO.
  exact (C52_lpf cutoff (1 / t) true _ T N _ p s None lam o st T0 H SO).
Qed.
(** The output of NoGraph is normalised only if asked for. *)
Theorem C52_no_graph_output T N k raw out : shaped T N k raw -> (0 < T)%nat -> (0 < N)%nat ->
  (quat_rows false raw = Ok out <-> out = raw) /\ (quat_rows true raw = Ok out <-> k = 4%nat /\ out = map (map normalize_row) raw).
Proof.
  intros SR T0 N0. split; [cbn [quat_rows]; split; [now intros [= <-]|now intros ->]|]. cbn [quat_rows].
  destruct (Nat.eq_dec k 4) as [->|NK].
  - rewrite (map_rows_total _ normalize_row T N 4); [split; [now intros [= <-]|now intros [_ ->]]| |exact SR]. intros r ->. reflexivity.
  - split; [|now intros [X _]]. destruct SR as (L & SR). destruct raw as [|a x]; [cbn in L; lia|]. inversion SR as [|? ? (LN & HR) _]; subst.
    destruct a as [|r a]; [cbn in N0; lia|]. inversion HR; subst. unfold map_rows. cbn [mapM]. rewrite (proj2 (Nat.eqb_neq _ _)) by assumption. discriminate.
Qed.
(** RNNO without quaternion output is the network without the graph: no filtering, and the reference is not used. *)
Theorem C52_rnno_raw net ev samp cutoff x p s y lam :
  f_unbatched (P := P) (ST := ST) (make_RNNO net false ev false samp cutoff) x p s y lam = f_unbatched (no_graph false net) x p s y lam.
Proof. unfold make_RNNO. now rewrite andb_false_r. Qed.
(** With it, and without a reference: only evaluation low-pass filters. *)
Theorem C52_rnno_quats net samp cutoff x p s lam :
  f_unbatched (P := P) (ST := ST) (make_RNNO net true false false samp cutoff) x p s None lam = f_unbatched (no_graph true net) x p s None lam /\
  f_unbatched (make_RNNO net true true false samp cutoff) x p s None lam = f_unbatched (lpf cutoff samp true (no_graph true net)) x p s None lam.
Proof. unfold make_RNNO. cbn [andb]. split; apply C52_heading_none; eauto. Qed.
End Content.

(** Normalising a vector gives length one, or zero if all entries are within the tolerance. *)
Lemma row_norm2_scale c r : row_norm2 (map (fun v => c * v) r) = c * c * row_norm2 r.
Proof. unfold row_norm2. induction r as [|v r IH]; cbn [map fold_right]; [ring|]. rewrite IH. ring. Qed.
Lemma row_norm2_nonneg r : 0 <= row_norm2 r.
Proof. unfold row_norm2. induction r as [|v r IH]; cbn [map fold_right]; [lra|]. pose proof (Rle_0_sqr v). unfold Rsqr in *. lra. Qed.
Theorem C52_normalized r : row_norm2 (normalize_row r) = 1 \/ (Forall close0 r /\ Forall (eq 0) (normalize_row r)).
Proof.
  unfold normalize_row. destruct (forallb _ r) eqn:E.
  - right. rewrite forallb_forall in E. split.
    + apply Forall_forall. intros v I. specialize (E v I). destruct (close0_dec v); [assumption|discriminate].
    + apply Forall_map, Forall_forall. reflexivity.
  - left. rewrite row_norm2_scale.
    assert (P : 0 < row_norm2 r).
    { clear - E. induction r as [|v r IH]; [discriminate|]. cbn [forallb] in E. unfold row_norm2. cbn [map fold_right]. fold (row_norm2 r).
      pose proof (row_norm2_nonneg r) as NN. destruct (close0_dec v) as [c|c].
      - cbn [andb] in E. pose proof (Rle_0_sqr v). unfold Rsqr in *. specialize (IH E). lra.
      - assert (v <> 0). { intros ->. apply c. unfold close0, atol. rewrite Rabs_R0. lra. }
        pose proof (Rsqr_pos_lt v ltac:(assumption)). unfold Rsqr in *. lra. }
    pose proof (sqrt_sqrt (row_norm2 r) (Rlt_le _ _ P)) as SS. pose proof (sqrt_lt_R0 _ P). rewrite <- SS at 3. field. lra.
Qed.

(** ** Saving and loading *)
(** A network inside any number of wrappers. *)
Fixpoint nest {P} (ws : list (nat * option string)) (f : fobj P) : fobj P :=
  match ws with [] => f | (k, n) :: ws => FWrap k (nest ws f) n end.
Definition keep {A} (new old : option A) : option A := match new with Some a => Some a | None => old end.
(** Whatever is wrapped around a network: wrappers, parameters and lam come back, with those given to save preferred. *)
Theorem C52_save_load {P} params lam ws p l n :
  post_load (fst (save params lam (nest ws (FRing (P := P) p l n)))) = nest ws (FRing (keep params p) (keep lam l) None).
Proof. unfold save. cbn [fst]. induction ws as [|[k nm] ws IH]; [reflexivity|]. cbn [nest pre_save nojit post_load]. now rewrite IH. Qed.
(** The name does not. *)
Theorem C52_save_name_refuted : exists f : fobj R, (exists s, fname f = Ok s) /\ forall s, fname (post_load (fst (save None None f))) <> Ok s.
Proof. exists (FRing None None (Some "net"%string)). split; [eexists; reflexivity|]. intros s. discriminate. Qed.
(** Saving a wrapped network changes the object in memory: its name is gone. *)
Theorem C52_save_side_effect_refuted : exists f : fobj R, (exists s, fname f = Ok s) /\ forall s, fname (snd (save None None f)) <> Ok s.
Proof. exists (FWrap 0 (FRing None None (Some "net"%string)) (Some "ScaleX"%string)). split; [eexists; reflexivity|]. intros s. discriminate. Qed.
(** A filter that keeps the default hooks is loaded as None. *)
Theorem C52_save_user_refuted {P} name : post_load (fst (save None None (FUser (P := P) name))) = FNone.
Proof. reflexivity. Qed.
(** Names list the wrapped filters, innermost first. *)
Theorem C52_name {P} ws (f : fobj P) inner : fname f = Ok inner ->
  fname (nest (map (fun kn => (fst kn, Some (snd kn))) ws) f) = Ok (fold_right (fun kn acc => acc ++ " ->" ++ String (Ascii.ascii_of_nat 10) EmptyString ++ snd kn)%string inner ws).
Proof. intros H. induction ws as [|[k n] ws IH]; [exact H|]. cbn [map nest fname fst snd fold_right]. rewrite IH. reflexivity. Qed.

(** ** Examples: a network that sums up features and counts steps *)
Definition ex_forward (p : R) (lam : list Z) (s : R) (x : arr3) : result (arr3 * R) :=
  Ok (map (map (fun r : row => [p; s; fold_right Rplus 0 r; 1])) x, s + 1).
Definition ex_net : filter := ring_filter ex_forward (fun _ F => INR F) (fun _ => 0) None (Some [(-1)%Z; 0%Z]).
Definition ex_x (a : R) : arr3 := [[repeat a 9; repeat 2 9]; [repeat 3 9; repeat 4 9]; [repeat 5 9; repeat 6 9]].
Example C52_ex_shaped a : shaped 3 2 9 (ex_x a).
Proof. repeat constructor. Qed.
Example C52_ex_RING : consistent (make_RING ex_net (Some [(-1)%Z; 0%Z]) (Some (1 / 100)) true true 10).
Proof. apply C52_RING_consistent, C52_network. Qed.
Example C52_ex_ok : exists r, f_unbatched (make_RING ex_net (Some [(-1)%Z; 0%Z]) (Some (1 / 100)) false true 10) (ex_x 1) (Some 1) None None None = Ok r /\ snd r = 0 + 1.
Proof. eexists. split; [cbv -[Rplus Rmult Rdiv Rinv IZR]; reflexivity|reflexivity]. Qed.
(** A filter with eight outputs on one link, wrapped for systems with two links. *)
Definition ex_rnno : filter := of_unbatched (fun x (p : option R) (s : option R) y lam => Ok (map (fun _ => [repeat 1 8]) x, 0)).
Example C52_ex_one_link : one_link_output ex_rnno 8.
Proof.
  intros T F x p s y lam o st (L & H) E. injection E as <- _. split; [now rewrite map_length|]. apply Forall_map, Forall_forall. intros st0 _. repeat constructor.
Qed.
Example C52_ex_RNNO : consistent (make_RNNO ex_rnno true true true (Some 100) 10).
Proof. apply (C52_RNNO_consistent 8); [lia|apply C52_ex_one_link|apply C52_of_unbatched]. Qed.
Example C52_ex_no_graph : f_unbatched (no_graph false ex_rnno) (ex_x 1) None None None None = Ok (repeat (repeat (repeat 1 4) 2) 3, 0).
Proof. reflexivity. Qed.
Print Assumptions C52_RNNO_consistent.
