(** * C93: what ring.RING hands out. *)
From Coq Require Import Reals Lra Lia ZArith String Bool List.
From Verif Require Import Prelude M_Math M_Ring M_Filter C_Filter M_Factory.
Import ListNotations.
Local Open Scope string_scope.
Local Open Scope list_scope.
Local Open Scope R_scope.

(** ** Specification *)
(** The value of a keyword argument, or its default. *)
Definition kwarg (kwargs : list (string * kwval)) (name : string) (default : kwval) : kwval :=
  match dget String.eqb kwargs name with Some v => v | None => default end.
(** The user asks for 100 Hz and has not turned the 100 Hz parameters off. *)
Definition at_100Hz (Ts : option R) (kwargs : list (string * kwval)) : Prop :=
  Ts = Some (1 / 100) /\ truthy (kwarg kwargs "use_100Hz_RING" (KBool true)) = true.
(** What the network sees of one link's features: acc / 9.81, ten times the sampling interval if any, gyr / 2.2, axis / 0.57. *)
Definition seen (dt : list R) (r : row) : row :=
  map (fun v => v * (1 / (981 / 100))) (firstn 3 r) ++ map (fun v => v * 10) dt ++
  map (fun v => v * (1 / (22 / 10))) (firstn 3 (skipn 3 r)) ++ map (fun v => v * (1 / (57 / 100))) (firstn 3 (skipn 6 r)).
(** The number of features per link. *)
Definition features (Ts : option R) : nat := match Ts with Some _ => 9%nat | None => 10%nat end.
(** The same data with the sampling interval as tenth feature. *)
Definition with_Ts (t : R) (x : arr3) : arr3 := map (map (fun r => r ++ [t])) x.

(** The low-pass filter, if it is on: each link's orientations, at the cutoff frequency and the given rate. *)
Definition lowpassed (Ts : option R) (kwargs : list (string * kwval)) (T N : nat) (o out : arr3) : Prop :=
  truthy (kwarg kwargs "use_lpf" (KBool true)) = true -> shaped T N 4 o -> (0 < T)%nat ->
  exists c, number (kwarg kwargs "lpf_cutoff_freq" (KNum 10)) = Ok c /\ shaped T N 4 out /\
    forall t, Ts = Some t -> forall j, (j < N)%nat -> exists qs, series o j = Ok qs /\ series out j = Ok (quat_lowpassfilter c (1 / t) true qs).

(** ** Keyword arguments *)
Lemma string_eqb_spec' a b : String.eqb a b = true <-> a = b.
Proof. apply String.eqb_eq. Qed.
Lemma fold_dget (kwargs : list (string * kwval)) : NoDup (map fst kwargs) -> forall d name,
  dget String.eqb (fold_left (fun d kv => dset String.eqb d (fst kv) (snd kv)) kwargs d) name =
  match dget String.eqb kwargs name with Some v => Some v | None => dget String.eqb d name end.
Proof.
  induction kwargs as [|[k v] kw IH]; intros ND d name; [reflexivity|]. inversion ND as [|? ? NI ND']; subst. cbn [fold_left fst snd]. rewrite IH by exact ND'. cbn [dget].
  destruct (String.eqb name k) eqn:E.
  - apply String.eqb_eq in E. subst k. assert (X : dget String.eqb kw name = None).
    { destruct (dget String.eqb kw name) as [v'|] eqn:D; [|reflexivity]. exfalso. apply NI. clear - D. induction kw as [|[a b] kw IH]; [discriminate|]. cbn [dget] in D.
      destruct (String.eqb name a) eqn:E; [apply String.eqb_eq in E; left; symmetry; exact E|right; auto]. }
    rewrite X. now rewrite dget_dset_same by apply string_eqb_spec'.
  - destruct (dget String.eqb kw name); [reflexivity|]. rewrite dget_dset_other; [reflexivity|apply string_eqb_spec'|]. intros ->. rewrite String.eqb_refl in E. discriminate.
Qed.
Definition the_default (name : string) : option kwval :=
  dget String.eqb [("use_100Hz_RING", KBool true); ("use_lpf", KBool true); ("lpf_cutoff_freq", KNum lpf_cutoff_freq)] name.
Lemma config_get kwargs name d : NoDup (map fst kwargs) -> the_default name = Some d -> dgetE String.eqb (config_of kwargs) name = Ok (kwarg kwargs name d).
Proof.
  intros ND E. unfold dgetE, config_of. rewrite fold_dget by exact ND. unfold kwarg. destruct (dget String.eqb kwargs name); [reflexivity|]. unfold the_default in E. now rewrite E.
Qed.

Section Factory.
Context {P ST : Type}.
Variable forward : P -> list Z -> ST -> arr3 -> result (arr3 * ST).
Variable init_params : list Z -> nat -> P.
Variable init_state : list Z -> ST.
Variable load : string -> result P.
Notation RING := (RING forward init_params init_state load).
Notation network p lam := (ring_filter forward init_params init_state (Some p) lam).

(** The factory with its configuration read off. *)
Definition file_of (Ts : option R) (kwargs : list (string * kwval)) : string := fst (choose Ts (kwarg kwargs "use_100Hz_RING" (KBool true))).
Definition adds (Ts : option R) (kwargs : list (string * kwval)) : bool := snd (choose Ts (kwarg kwargs "use_100Hz_RING" (KBool true))).
Definition filtered (Ts : option R) (kwargs : list (string * kwval)) (f : @filter P ST) : filter :=
  if truthy (kwarg kwargs "use_lpf" (KBool true))
  then lpf_kw (kwarg kwargs "lpf_cutoff_freq" (KNum lpf_cutoff_freq)) (match Ts with None => None | Some t => Some (1 / t) end) f else f.
Definition core lam Ts kwargs p : filter := ground_truth_heading (Ok lam) (filtered Ts kwargs (scale_x default_factors (network p lam))).
Lemma RING_eq lam Ts kwargs : NoDup (map fst kwargs) ->
  RING lam Ts kwargs = do w <- warns Ts; do p <- load (file_of Ts kwargs);
    Ok (w, if adds Ts kwargs then add_ts Ts (core lam Ts kwargs p) else core lam Ts kwargs p).
Proof.
  intros ND. unfold M_Factory.RING, file_of, adds, core, filtered. cbv zeta. rewrite (config_get _ _ (KBool true) ND) by reflexivity. cbn [bind].
  destruct (warns Ts) as [w|e]; cbn [bind]; [|reflexivity]. destruct (choose Ts _) as [file a]. cbn [fst snd].
  destruct (load file) as [p|e]; cbn [bind]; [|reflexivity]. rewrite (config_get _ _ (KBool true) ND) by reflexivity. cbn [bind].
  destruct (truthy (kwarg kwargs "use_lpf" (KBool true))); [|reflexivity]. rewrite (config_get _ _ (KNum lpf_cutoff_freq) ND) by reflexivity. reflexivity.
Qed.
Lemma RING_inv lam Ts kwargs w f : NoDup (map fst kwargs) -> RING lam Ts kwargs = Ok (w, f) ->
  warns Ts = Ok w /\ exists p, load (file_of Ts kwargs) = Ok p /\ f = if adds Ts kwargs then add_ts Ts (core lam Ts kwargs p) else core lam Ts kwargs p.
Proof.
  intros ND H. rewrite RING_eq in H by exact ND. apply bind_Ok in H. destruct H as (w' & Ew & H). apply bind_Ok in H. destruct H as (p & Ep & H).
  injection H as -> <-. split; [exact Ew|]. exists p. split; [exact Ep|reflexivity].
Qed.
Lemma choice_100 Ts kwargs : at_100Hz Ts kwargs -> file_of Ts kwargs = file_100Hz /\ adds Ts kwargs = false /\ Ts = Some (1 / 100).
Proof. intros (-> & U). unfold file_of, adds, choose. destruct (Req_EM_T (1 / 100) (1 / 100)); [|congruence]. rewrite U. auto. Qed.
Lemma choice_any Ts kwargs : ~ at_100Hz Ts kwargs -> file_of Ts kwargs = file_any /\ adds Ts kwargs = true.
Proof.
  intros NA. unfold file_of, adds, choose. destruct Ts as [t|]; [|auto]. destruct (Req_EM_T t (1 / 100)) as [->|]; [|auto].
  destruct (truthy _) eqn:U; [|auto]. exfalso. apply NA. split; auto.
Qed.
Lemma at_100Hz_dec Ts kwargs : at_100Hz Ts kwargs \/ ~ at_100Hz Ts kwargs.
Proof.
  unfold at_100Hz. destruct Ts as [t|]; [|right; intros (H & _); discriminate]. destruct (Req_EM_T t (1 / 100)) as [->|N]; [|right; intros (H & _); congruence].
  destruct (truthy _); [left; auto|right; intros (_ & H); discriminate].
Qed.

(** ** When it succeeds and when it warns *)
Theorem C93_success lam Ts kwargs : NoDup (map fst kwargs) ->
  ((exists w f, RING lam Ts kwargs = Ok (w, f)) <->
   Ts <> Some 0 /\ ((at_100Hz Ts kwargs -> exists p, load file_100Hz = Ok p) /\ (~ at_100Hz Ts kwargs -> exists p, load file_any = Ok p))).
Proof.
  intros ND. rewrite RING_eq by exact ND.
  assert (W : (exists w, warns Ts = Ok w) <-> Ts <> Some 0).
  { unfold warns. destruct Ts as [t|]; [|split; [discriminate|eauto]]. split.
    - intros (w & H) [= ->]. destruct (Rlt_dec (1 / 40) 0); [lra|]. destruct (Rlt_dec 0 (1 / 200)); [|lra]. destruct (Req_EM_T 0 0); [discriminate|congruence].
    - intros N. destruct (Req_EM_T t 0) as [->|]; [congruence|]. destruct (if Rlt_dec (1 / 40) t then true else if Rlt_dec t (1 / 200) then true else false); eauto. }
  split.
  - intros (w & f & H). apply bind_Ok in H. destruct H as (w' & Ew & H). apply bind_Ok in H. destruct H as (p & Ep & _). split; [apply W; eauto|]. split; intros A.
    + rewrite (proj1 (choice_100 _ _ A)) in Ep. eauto.
    + rewrite (proj1 (choice_any _ _ A)) in Ep. eauto.
  - intros (N & HA & HB). apply W in N. destruct N as (w & ->). cbn [bind]. destruct (at_100Hz_dec Ts kwargs) as [A|A].
    + rewrite (proj1 (choice_100 _ _ A)). destruct (HA A) as (p & ->). cbn [bind]. eauto.
    + rewrite (proj1 (choice_any _ _ A)). destruct (HB A) as (p & ->). cbn [bind]. eauto.
Qed.
Theorem C93_warns lam Ts kwargs w f : NoDup (map fst kwargs) -> RING lam Ts kwargs = Ok (w, f) ->
  (w = true <-> exists t, Ts = Some t /\ (t < 1 / 200 \/ 1 / 40 < t)).
Proof.
  intros ND H. destruct (RING_inv _ _ _ _ _ ND H) as (E & _). clear H. unfold warns in E. destruct Ts as [t|].
  - destruct (Rlt_dec (1 / 40) t) as [L|L].
    + destruct (Req_EM_T t 0); [discriminate|]. injection E as <-. split; [eauto|reflexivity].
    + destruct (Rlt_dec t (1 / 200)) as [M|M].
      * destruct (Req_EM_T t 0); [discriminate|]. injection E as <-. split; [eauto|reflexivity].
      * injection E as <-. split; [discriminate|]. intros (t' & [= <-] & [X|X]); contradiction.
  - injection E as <-. split; [discriminate|]. intros (t' & H & _). discriminate.
Qed.

(** ** What the network sees *)
Lemma lpf_kw_inv cutoff samp (g : @filter P ST) x p s y lam r : f_unbatched (lpf_kw cutoff samp g) x p s y lam = Ok r ->
  exists o, f_unbatched g x p s y lam = Ok (o, snd r).
Proof.
  unfold lpf_kw. destruct (number cutoff) as [c|e]; cbn [f_unbatched lpf wrap]; intros H; apply bind_Ok in H; destruct H as (x' & [= <-] & H);
    apply bind_Ok in H; destruct H as ([o st] & E & H); apply bind_Ok in H; destruct H as (out & _ & H); injection H as <-; exists o; exact E.
Qed.
Lemma core_inv lam Ts kwargs p x p' s lam' r T N F : shaped T N F x -> (F = 9 \/ F = 10)%nat ->
  f_unbatched (core lam Ts kwargs p) x p' s None lam' = Ok r ->
  exists o, f_unbatched (network p lam) (map (map (scaled (1 / (981 / 100)) 10 (1 / (22 / 10)) (1 / (57 / 100)))) x) p' s None lam' = Ok (o, snd r) /\
    (truthy (kwarg kwargs "use_lpf" (KBool true)) = false -> fst r = o) /\ lowpassed Ts kwargs T N o (fst r).
Proof.
  intros SX HF. unfold core. rewrite C52_heading_none by eauto. unfold filtered, lowpassed.
  rewrite <- (C52_scale_x default_factors _ _ _ _ (network p lam) T N F); try reflexivity; try exact SX; try tauto.
  destruct (truthy _).
  - intros H. destruct (lpf_kw_inv _ _ _ _ _ _ _ _ _ H) as (o & E). exists o. split; [exact E|]. split; [discriminate|]. intros _ SO T0.
    unfold lpf_kw in H. change (KNum 10) with (KNum lpf_cutoff_freq). destruct (number _) as [c|err].
    + exists c. split; [reflexivity|]. destruct Ts as [t|].
      * destruct (C52_lpf c (1 / t) true _ T N x p' s None lam' o (snd r) T0 E SO) as (out & E2 & S2 & Q). rewrite E2 in H. injection H as <-. cbn [fst]. split; [exact S2|]. intros t' [= <-]. exact Q.
      * split; [|discriminate]. cbn [f_unbatched lpf wrap bind] in H. rewrite E in H. cbn [bind fst snd] in H. unfold lpf_post in H. apply bind_Ok in H. destruct H as (out & H & H2).
        apply bind_Ok in H. destruct H as (fs & _ & H). destruct (lowpass_links_spec c fs true T N o T0 SO) as (out' & E2 & S2 & _). rewrite E2 in H. injection H as <-. injection H2 as <-. exact S2.
    + cbn [f_unbatched wrap] in H. apply bind_Ok in H. destruct H as (? & _ & H). apply bind_Ok in H. destruct H as (? & _ & H). discriminate H.
  - intros H. exists (fst r). rewrite H. split; [destruct r; auto|]. split; [reflexivity|discriminate].
Qed.
Lemma shaped_map (g : row -> row) T N F F' x : shaped T N F x -> (forall r, length r = F -> length (g r) = F') -> shaped T N F' (map (map g) x).
Proof.
  intros (L & S) H. split; [now rewrite map_length|]. apply Forall_map. eapply Forall_impl; [|exact S]. intros st (LN & HF). split; [now rewrite map_length|].
  apply Forall_map. eapply Forall_impl; [|exact HF]. cbn beta. auto.
Qed.
Lemma map_map_eq (g h : row -> row) T N F x : shaped T N F x -> (forall r, length r = F -> g r = h r) -> map (map g) x = map (map h) x.
Proof.
  intros (_ & S) H. rewrite Forall_forall in S. apply map_ext_in. intros st I. destruct (S st I) as (_ & HF). rewrite Forall_forall in HF. apply map_ext_in. auto.
Qed.
(** The network on one sequence. *)
Lemma network_inv p lam x p' s y lam' o st (H : f_unbatched (network p lam) x p' s y lam' = Ok (o, st)) :
  exists l, (match lam' with Some a => Some a | None => lam end) = Some l /\
    forward (match p' with Some a => a | None => p end) l (match s with Some a => a | None => init_state l end) x = Ok (o, st).
Proof.
  revert H. cbn [f_unbatched ring_filter of_batched]. unfold ring_fb. destruct (match lam' with Some l => Some l | None => lam end) as [l|]; [|discriminate]. intros H. exists l. split; [reflexivity|]. revert H.
  assert (E : (match p' with Some a => Ok a | None => Ok p end) = Ok (match p' with Some a => a | None => p end)) by now destruct p'. rewrite E. cbn [bind]. clear E.
  assert (ES : (match option_map (fun s0 : ST => [s0]) s with Some s0 => s0 | None => repeat (init_state l) (length [x]) end) = [match s with Some a => a | None => init_state l end]) by now destruct s.
  rewrite ES. cbn [length Nat.eqb negb combine mapM fst snd]. intros H. apply bind_Ok in H. destruct H as (r & E & H). apply bind_Ok in E. destruct E as (rs & E & Er). apply bind_Ok in E. destruct E as ([o' st'] & E & E2).
  cbn [bind] in E2. injection E2 as <-. injection Er as <-. cbn [map fst snd] in H. rewrite !jax_get_0 in H. cbn [bind] in H. injection H as <- <-. exact E.
Qed.
Theorem C93_network lam Ts kwargs w f : NoDup (map fst kwargs) -> RING lam Ts kwargs = Ok (w, f) ->
  exists p, (at_100Hz Ts kwargs -> load file_100Hz = Ok p) /\ (~ at_100Hz Ts kwargs -> load file_any = Ok p) /\
  forall T N x p' s lam' r, shaped T N (features Ts) x -> f_unbatched f x p' s None lam' = Ok r ->
  exists dt l o,
    (at_100Hz Ts kwargs -> forall row, dt row = []) /\
    (~ at_100Hz Ts kwargs -> forall row, dt row = match Ts with Some t => [t] | None => skipn 9 row end) /\
    (match lam' with Some a => Some a | None => lam end) = Some l /\
    forward (match p' with Some a => a | None => p end) l (match s with Some a => a | None => init_state l end)
      (map (map (fun row => seen (dt row) row)) x) = Ok (o, snd r) /\
    (truthy (kwarg kwargs "use_lpf" (KBool true)) = false -> fst r = o) /\ lowpassed Ts kwargs T N o (fst r).
Proof.
  intros ND H. destruct (RING_inv _ _ _ _ _ ND H) as (_ & p & Ep & ->). exists p. destruct (at_100Hz_dec Ts kwargs) as [A|A].
  - destruct (choice_100 _ _ A) as (EF & EA & ->). rewrite EF in Ep. rewrite EA. split; [auto|]. split; [contradiction|]. intros T N x p' s lam' r SX R.
    destruct (core_inv _ _ _ _ _ _ _ _ _ T N 9%nat SX (or_introl eq_refl) R) as (o & Eo & Ho). destruct (network_inv _ _ _ _ _ _ _ _ _ Eo) as (l & El & Ef). exists (fun _ => []), l, o. split; [auto|]. split; [contradiction|]. split; [exact El|]. split; [|exact Ho].
    rewrite <- Ef. f_equal. symmetry. apply (map_map_eq _ _ T N 9 x SX). intros q L. destruct (list9 q L) as (a & b & c & d & e & g & h & i & j & ->). reflexivity.
  - destruct (choice_any _ _ A) as (EF & EA). rewrite EF in Ep. rewrite EA. split; [contradiction|]. split; [auto|]. intros T N x p' s lam' r SX R. destruct Ts as [t|].
    + cbn [features] in SX. rewrite (C52_add_ts t _ T N) in R by exact SX.
      assert (SX' : shaped T N 10 (map (map (fun r : row => r ++ [t])) x)) by (apply (shaped_map _ T N 9); [exact SX|intros q L; now rewrite app_length, L]).
      destruct (core_inv _ _ _ _ _ _ _ _ _ T N 10%nat SX' (or_intror eq_refl) R) as (o & Eo & Ho). destruct (network_inv _ _ _ _ _ _ _ _ _ Eo) as (l & El & Ef). exists (fun _ => [t]), l, o. split; [contradiction|]. split; [auto|]. split; [exact El|]. split; [|exact Ho].
      rewrite <- Ef. f_equal. rewrite map_map. destruct SX as (_ & S). rewrite Forall_forall in S. apply map_ext_in. intros st I. rewrite map_map.
      destruct (S st I) as (_ & HF). rewrite Forall_forall in HF. apply map_ext_in. intros q Iq. destruct (list9 q (HF q Iq)) as (a & b & c & d & e & g & h & i & j & ->). reflexivity.
    + cbn [features] in SX. rewrite (C52_add_ts_none _ T N) in R by exact SX.
      destruct (core_inv _ _ _ _ _ _ _ _ _ T N 10%nat SX (or_intror eq_refl) R) as (o & Eo & Ho). destruct (network_inv _ _ _ _ _ _ _ _ _ Eo) as (l & El & Ef). exists (skipn 9), l, o. split; [contradiction|]. split; [auto|]. split; [exact El|]. split; [|exact Ho].
      rewrite <- Ef. f_equal. apply (map_map_eq _ _ T N 10 x SX). intros q L. destruct (list10 q L) as (a & b & c & d & e & g & h & i & j & k & ->). reflexivity.
Qed.

(** ** The number of features *)
Theorem C93_features (accepts : P -> nat) lam Ts kwargs w f T N F x s y lam' r : NoDup (map fst kwargs) ->
  (forall p l s x o, forward p l s x = Ok o -> Forall (Forall (fun row => length row = accepts p)) x) ->
  (forall p, load file_100Hz = Ok p -> accepts p = 9%nat) ->
  RING lam Ts kwargs = Ok (w, f) -> shaped T N F x -> (0 < T)%nat -> (0 < N)%nat ->
  f_unbatched f x None s y lam' = Ok r -> F = features Ts.
Proof.
  intros ND HA H9 H SX T0 N0 R. destruct (RING_inv _ _ _ _ _ ND H) as (_ & p & Ep & ->). destruct (at_100Hz_dec Ts kwargs) as [A|A].
  - destruct (choice_100 _ _ A) as (EF & EA & ->). rewrite EA in R. rewrite EF in Ep. cbn [features]. rewrite <- (H9 p Ep).
    unfold core in R. cbn [f_unbatched ground_truth_heading wrap] in R. apply bind_Ok in R. destruct R as (x1 & [= <-] & R). apply bind_Ok in R. destruct R as (r1 & R & _).
    assert (R2 : exists o, f_unbatched (scale_x default_factors (network p lam)) x None s y lam' = Ok (o, snd r1)).
    { unfold filtered in R. destruct (truthy _); [exact (lpf_kw_inv _ _ _ _ _ _ _ _ _ R)|]. exists (fst r1). rewrite R. now destruct r1. }
    destruct R2 as (o & R2). cbn [f_unbatched scale_x wrap] in R2. apply bind_Ok in R2. destruct R2 as (x2 & E2 & R2). apply bind_Ok in R2. destruct R2 as ([o2 s2] & R2 & _).
    destruct (network_inv _ _ _ _ _ _ _ _ _ R2) as (l & _ & Ef). apply HA in Ef. destruct SX as (L & SX). destruct x as [|st x]; [cbn in L; lia|]. inversion SX as [|? ? (LN & HR) _]; subst.
    destruct st as [|q st]; [cbn in N0; lia|]. inversion HR as [|? ? LQ _]; subst. unfold map_rows in E2. cbn [mapM] in E2. apply bind_Ok in E2. destruct E2 as (st2 & E2 & E3).
    apply bind_Ok in E3. destruct E3 as (x3 & _ & [= <-]). apply bind_Ok in E2. destruct E2 as (q2 & Eq & E2). apply bind_Ok in E2. destruct E2 as (q3 & _ & [= <-]).
    inversion Ef as [|? ? F1 _]; subst. inversion F1 as [|? ? F2 _]; subst. rewrite <- F2. symmetry. exact (scale_row_length _ _ _ Eq).
  - destruct (choice_any _ _ A) as (_ & EA). rewrite EA in R. destruct (Nat.eq_dec F (features Ts)) as [E|E]; [exact E|]. exfalso.
    rewrite (C52_add_ts_refuses Ts _ T N F x None s y lam' SX T0 N0) in R; [discriminate|]. destruct Ts; exact E.
Qed.

(** ** The sampling interval as an argument, or in the data *)
Theorem C93_given_or_in_data lam t kwargs w f w' f' T N x p s y lam' : NoDup (map fst kwargs) -> ~ at_100Hz (Some t) kwargs ->
  RING lam (Some t) kwargs = Ok (w, f) -> RING lam None kwargs = Ok (w', f') -> shaped T N 9 x -> (0 < T)%nat -> (0 < N)%nat ->
  f_unbatched f x p s y lam' = f_unbatched f' (with_Ts t x) p s y lam'.
Proof.
  intros ND A H H' SX T0 N0. destruct (RING_inv _ _ _ _ _ ND H) as (_ & q & Eq & ->). destruct (RING_inv _ _ _ _ _ ND H') as (_ & q' & Eq' & ->).
  assert (A' : ~ at_100Hz None kwargs) by (intros (X & _); discriminate). destruct (choice_any _ _ A) as (EF & EA). destruct (choice_any _ _ A') as (EF' & EA').
  rewrite EF in Eq. rewrite EF' in Eq'. rewrite Eq in Eq'. injection Eq' as <-. rewrite EA, EA'.
  assert (SX' : shaped T N 10 (with_Ts t x)) by (apply (shaped_map _ T N 9); [exact SX|intros v L; now rewrite app_length, L]).
  rewrite (C52_add_ts t _ T N) by exact SX. rewrite (C52_add_ts_none _ T N) by exact SX'. fold (with_Ts t x). unfold core. cbn [f_unbatched ground_truth_heading wrap bind].
  assert (E : f_unbatched (filtered (Some t) kwargs (scale_x default_factors (network q lam))) (with_Ts t x) p s y lam' =
              f_unbatched (filtered None kwargs (scale_x default_factors (network q lam))) (with_Ts t x) p s y lam'); [|now rewrite E].
  unfold filtered. destruct (truthy _); [|reflexivity]. unfold lpf_kw. destruct (number _); [|reflexivity].
  destruct x as [|st x]; [destruct SX as (L & _); cbn in L; lia|]. destruct st as [|v st]; [destruct SX as (_ & S); inversion S as [|? ? (LN & _) _]; cbn in LN; lia|].
  symmetry. apply (C52_lpf_detects _ _ _ T N _ p s y lam' (map (fun r => r ++ [t]) st) (with_Ts t x) v t SX'). reflexivity.
Qed.

(** ** A batch is the sequences one by one *)
Theorem C93_batch lam Ts kwargs w f : NoDup (map fst kwargs) -> RING lam Ts kwargs = Ok (w, f) -> consistent f.
Proof.
  intros ND H. destruct (RING_inv _ _ _ _ _ ND H) as (_ & p & _ & ->). assert (C : consistent (core lam Ts kwargs p)).
  { apply C52_heading_consistent. unfold filtered, lpf_kw. assert (S : consistent (scale_x default_factors (network p lam))) by (apply C52_scale_consistent, C52_network).
    destruct (truthy _); [|exact S]. destruct (number _); [now apply C52_lpf_consistent|now apply C52_wrapper; [apply shape_id|]]. }
  destruct (adds Ts kwargs); [now apply C52_add_ts_consistent|exact C].
Qed.

(** ** Keyword arguments that ring.RING does not know are ignored *)
Theorem C93_unknown_keyword lam Ts kwargs name v : NoDup (map fst kwargs) -> ~ In name (map fst kwargs) ->
  name <> "use_100Hz_RING" -> name <> "use_lpf" -> name <> "lpf_cutoff_freq" -> RING lam Ts ((name, v) :: kwargs) = RING lam Ts kwargs.
Proof.
  intros ND NI N1 N2 N3. rewrite !RING_eq; [|exact ND|constructor; assumption].
  assert (E : forall k d, k <> name -> kwarg ((name, v) :: kwargs) k d = kwarg kwargs k d).
  { intros k d NK. unfold kwarg. cbn [dget]. destruct (String.eqb k name) eqn:E; [apply String.eqb_eq in E; contradiction|reflexivity]. }
  unfold file_of, adds, core, filtered. rewrite !E by congruence. reflexivity.
Qed.
End Factory.

(** ** Refuted *)
(** A network whose output is its parameter, the one for 100 Hz and the other being different. *)
Definition ex_load (file : string) : result R := if String.eqb file file_100Hz then Ok 1 else if String.eqb file file_any then Ok 2 else Err EOther.
Definition ex_fwd (p : R) (lam : list Z) (s : R) (x : arr3) : result (arr3 * R) :=
  if forallb (forallb (fun r => (length r =? if Req_EM_T p 1 then 9 else 10)%nat)) x then Ok (map (map (fun r => [p; 0; 0; 0])) x, s) else Err EValue.
Definition ex_ring := RING ex_fwd (fun _ _ => 0) (fun _ => 0) ex_load.
Definition ex_data : arr3 := [[[0; 0; 0; 0; 0; 0; 0; 0; 0]; [1; 2; 3; 4; 5; 6; 7; 8; 9]]].
Lemma at_100 : at_100Hz (Some (1 / 100)) [("use_lpf", KBool false)].
Proof. split; reflexivity. Qed.
Definition off : list (string * kwval) := [("use_lpf", KBool false)].
Lemma off_nodup : NoDup (map fst off).
Proof. repeat constructor. intros []. Qed.
Lemma ex_100 : exists w f, ex_ring (Some [(-1)%Z; 0%Z]) (Some (1 / 100)) off = Ok (w, f) /\ f_unbatched f ex_data None None None None = Ok ([[[1; 0; 0; 0]; [1; 0; 0; 0]]], 0).
Proof.
  unfold ex_ring. rewrite RING_eq by exact off_nodup. destruct (choice_100 _ _ at_100) as (EF & EA & _). fold off in EF, EA. rewrite EF, EA.
  unfold warns. destruct (Rlt_dec (1 / 40) (1 / 100)); [lra|]. destruct (Rlt_dec (1 / 100) (1 / 200)); [lra|]. cbn [bind]. unfold ex_load. cbn [String.eqb Ascii.eqb Bool.eqb file_100Hz]. change (String.eqb file_100Hz file_100Hz) with true. cbn [bind].
  eexists _, _. split; [reflexivity|]. cbv -[Rplus Rmult Rdiv Rinv IZR Req_EM_T]. destruct (Req_EM_T 1 1); [reflexivity|congruence].
Qed.
Lemma ex_none : exists w f, ex_ring (Some [(-1)%Z; 0%Z]) None off = Ok (w, f) /\ f_unbatched f (with_Ts (1 / 100) ex_data) None None None None = Ok ([[[2; 0; 0; 0]; [2; 0; 0; 0]]], 0).
Proof.
  unfold ex_ring. rewrite RING_eq by exact off_nodup. change (warns None) with (Ok false). cbn [bind]. change (file_of None off) with file_any. change (adds None off) with true.
  change (ex_load file_any) with (Ok 2). cbn [bind]. eexists _, _. split; [reflexivity|]. cbv -[Rplus Rmult Rdiv Rinv IZR Req_EM_T]. destruct (Req_EM_T 2 1); [lra|reflexivity].
Qed.
(** "It makes no difference whether the sampling interval is an argument or in the data": at 100 Hz other parameters are used. *)
Theorem C93_same_rate_refuted : exists lam kwargs w f w' f' x r r',
  shaped 1 2 9 x /\ ex_ring lam (Some (1 / 100)) kwargs = Ok (w, f) /\ ex_ring lam None kwargs = Ok (w', f') /\
  f_unbatched f x None None None None = Ok r /\ f_unbatched f' (with_Ts (1 / 100) x) None None None None = Ok r' /\ fst r <> fst r'.
Proof.
  destruct ex_100 as (w & f & E & R). destruct ex_none as (w' & f' & E' & R'). exists (Some [(-1)%Z; 0%Z]), off, w, f, w', f', ex_data, ([[[1; 0; 0; 0]; [1; 0; 0; 0]]], 0), ([[[2; 0; 0; 0]; [2; 0; 0; 0]]], 0).
  split; [repeat constructor|]. repeat (split; [assumption|]). cbn [fst]. intros X. injection X. lra.
Qed.
(** "A misspelt keyword argument is refused": the low-pass filter stays on. *)
Theorem C93_misspelt_refuted : exists lam Ts w f, ex_ring lam Ts [("use_lpF", KBool false)] = Ok (w, f) /\ ex_ring lam Ts [] = Ok (w, f).
Proof.
  destruct (proj2 (C93_success ex_fwd (fun _ _ => 0) (fun _ => 0) ex_load None None [] (NoDup_nil _))) as (w & f & E).
  - split; [discriminate|]. split; [intros (X & _); discriminate|]. exists 2. reflexivity.
  - exists None, None, w, f. split; [|exact E]. rewrite <- E. apply C93_unknown_keyword; try discriminate; [constructor|intros []].
Qed.

(** ** Non-vacuity *)
Example C93_example : exists w f, ex_ring (Some [(-1)%Z; 0%Z]) (Some (1 / 100)) off = Ok (w, f) /\ at_100Hz (Some (1 / 100)) off /\
  shaped 1 2 (features (Some (1 / 100))) ex_data /\ f_unbatched f ex_data None None None None = Ok ([[[1; 0; 0; 0]; [1; 0; 0; 0]]], 0) /\
  (forall p l s x o, ex_fwd p l s x = Ok o -> Forall (Forall (fun row => length row = (if Req_EM_T p 1 then 9 else 10)%nat)) x) /\
  ~ at_100Hz (Some (1 / 50)) off /\ ~ at_100Hz (Some (1 / 100)) [("use_100Hz_RING", KBool false)] /\
  ex_ring None (Some 0) off = Err EZeroDiv.
Proof.
  destruct ex_100 as (w & f & E & R). exists w, f. split; [exact E|]. split; [exact at_100|]. split; [repeat constructor|]. split; [exact R|]. split.
  { intros p l s x o H. unfold ex_fwd in H. match type of H with (if ?b then _ else _) = _ => destruct b eqn:B; [|discriminate] end. rewrite forallb_forall in B. apply Forall_forall. intros st I. specialize (B st I).
    rewrite forallb_forall in B. apply Forall_forall. intros q Iq. specialize (B q Iq). now apply Nat.eqb_eq in B. }
  split; [intros (X & _); injection X; lra|]. split; [intros (_ & X); discriminate|].
  unfold ex_ring. rewrite RING_eq by exact off_nodup. unfold warns. destruct (Rlt_dec (1 / 40) 0); [lra|]. destruct (Rlt_dec 0 (1 / 200)); [|lra]. destruct (Req_EM_T 0 0); [reflexivity|congruence].
Qed.
