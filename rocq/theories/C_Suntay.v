(** * C53: the knee joint's coordinates stay in their configured range. *)
From Coq Require Import Reals Lra Lia Bool String List Sorted.
From Verif Require Import Prelude M_Math P_Math P_Trig M_Suntay.
Import ListNotations.
Local Open Scope R_scope.

(** ** Specification *)
(** A finite number between the limits. *)
Definition within (mn mx : R) (o : option R) : Prop := exists v, o = Some v /\ mn <= v <= mx.
(** The data together with the given outer bounds do not all coincide. *)
Definition spread (ys : list R) (amin amax : option R) : Prop :=
  exists lo hi, lo < hi /\ (In lo ys \/ amin = Some lo) /\ (In hi ys \/ amax = Some hi).
Definition methods : list string := ["minmax"; "clip"; "smoothclamp"; "sigmoidclamp"; "sigmoid"]%string.

(** ** Proofs *)
Lemma lmin_le r : forall y x, In x (y :: r) -> lmin y r <= x.
Proof.
  induction r as [|z r IH]; intros y x; cbn [lmin fold_left].
  - intros [<-|[]]. lra.
  - intros H. change (fold_left Rmin r (Rmin y z)) with (lmin (Rmin y z) r).
    destruct H as [<-|[<-|H]].
    + pose proof (IH (Rmin y z) _ (or_introl eq_refl)). pose proof (Rmin_l y z). lra.
    + pose proof (IH (Rmin y z) _ (or_introl eq_refl)). pose proof (Rmin_r y z). lra.
    + apply IH. now right.
Qed.
Lemma le_lmax r : forall y x, In x (y :: r) -> x <= lmax y r.
Proof.
  induction r as [|z r IH]; intros y x; cbn [lmax fold_left].
  - intros [<-|[]]. lra.
  - intros H. change (fold_left Rmax r (Rmax y z)) with (lmax (Rmax y z) r).
    destruct H as [<-|[<-|H]].
    + pose proof (IH (Rmax y z) _ (or_introl eq_refl)). pose proof (Rmax_l y z). lra.
    + pose proof (IH (Rmax y z) _ (or_introl eq_refl)). pose proof (Rmax_r y z). lra.
    + apply IH. now right.
Qed.

Lemma rdiv_some a b : b <> 0 -> rdiv a b = Some (a / b).
Proof. intros H. unfold rdiv. destruct (Req_EM_T b 0); [contradiction|reflexivity]. Qed.
Lemma shift_in mn mx y : mn < mx -> mn <= y <= mx -> exists t, shift mn mx y = Some t /\ 0 <= t <= 1.
Proof.
  intros H [A B]. unfold shift. rewrite rdiv_some by lra. eexists. split; [reflexivity|].
  assert (I : 0 < / (mx - mn)) by (apply Rinv_0_lt_compat; lra). unfold Rdiv. split; [apply Rmult_le_pos; lra|].
  apply (Rmult_le_reg_r (mx - mn)); [lra|]. field_simplify; lra.
Qed.
Lemma shift_inv_in mn mx t : mn <= mx -> 0 <= t <= 1 -> mn <= shift_inv mn mx t <= mx.
Proof. intros H [A B]. unfold shift_inv. nra. Qed.

Lemma normalize_in ys amin amax : ys <> [] -> spread ys amin amax ->
  exists l, normalize ys amin amax = Ok l /\ length l = length ys /\ Forall (within 0 1) l.
Proof.
  intros NE (lo & hi & L & A & B). destruct ys as [|y r]; [contradiction|]. unfold normalize.
  set (mn := match amin with None => _ | Some a => _ end). set (mx := match amax with None => _ | Some a => _ end).
  assert (M1 : forall x, In x (y :: r) -> mn <= x).
  { intros x Hx. apply lmin_le in Hx. unfold mn. destruct amin as [a|]; [pose proof (Rmin_r a (lmin y r)); lra|lra]. }
  assert (M2 : forall x, In x (y :: r) -> x <= mx).
  { intros x Hx. apply le_lmax in Hx. unfold mx. destruct amax as [a|]; [pose proof (Rmax_r a (lmax y r)); lra|lra]. }
  assert (L1 : mn <= lo). { destruct A as [A| ->]; [auto|]. unfold mn. apply Rmin_l. }
  assert (L2 : hi <= mx). { destruct B as [B| ->]; [auto|]. unfold mx. apply Rmax_l. }
  eexists. split; [reflexivity|]. split; [apply map_length|]. apply Forall_forall. intros o Ho. apply in_map_iff in Ho.
  destruct Ho as (x & <- & Hx). destruct (shift_in mn mx x) as (t & E & T); [lra|auto|]. exists t. auto.
Qed.

Lemma sigmoid_in x : 0 < sigmoid x < 1.
Proof.
  unfold sigmoid. pose proof (exp_pos (- x)) as E. split; [apply Rinv_0_lt_compat; lra|].
  rewrite <- Rinv_1. apply Rinv_lt_contravar; lra.
Qed.
Lemma smoothstep_in t : 0 <= smoothstep t <= 1.
Proof.
  unfold smoothstep. destruct (Rlt_dec t 0); [lra|]. destruct (Rle_dec t 1); [|lra].
  assert (0 <= t) by lra. assert (0 <= t ^ 2) by (cbn; nra). replace (3 * t ^ 2 - 2 * t ^ 3) with (t ^ 2 * (3 - 2 * t)) by ring.
  split; [apply Rmult_le_pos; lra|]. assert (t ^ 2 * (3 - 2 * t) = 1 - (1 - t) ^ 2 * (1 + 2 * t)) as -> by ring.
  assert (0 <= (1 - t) ^ 2 * (1 + 2 * t)) by (apply Rmult_le_pos; [cbn; nra|lra]). lra.
Qed.

Theorem C53_clip mn mx x : mn <= mx -> mn <= clip x mn mx <= mx.
Proof. intros H. unfold clip, Rmin, Rmax. destruct (Rle_dec x mn), (Rle_dec _ mx); lra. Qed.
Theorem C53_smoothclamp mn mx x : mn < mx -> within mn mx (smoothclamp mn mx x).
Proof.
  intros H. unfold smoothclamp. rewrite rdiv_some by lra. cbn [omap]. eexists. split; [reflexivity|].
  pose proof (smoothstep_in ((x - mn) / (mx - mn))). nra.
Qed.
Theorem C53_sigmoidclamp mn mx x : mn < mx -> exists v, sigmoidclamp mn mx x = Some v /\ mn < v < mx.
Proof.
  intros H. unfold sigmoidclamp. rewrite rdiv_some by lra. cbn [omap]. eexists. split; [reflexivity|].
  set (u := Rpower 200 _). assert (0 < u) by (unfold u, Rpower; apply exp_pos).
  assert (0 < / (1 + u) < 1). { split; [apply Rinv_0_lt_compat; lra|]. rewrite <- Rinv_1. apply Rinv_lt_contravar; lra. }
  nra.
Qed.
Theorem C53_minmax ys mn mx amin amax st : mn <= mx -> ys <> [] -> spread ys amin amax ->
  exists out, restrict ys mn mx amin amax "minmax" st = Ok out /\ length out = length ys /\ Forall (within mn mx) out.
Proof.
  intros H NE SP. destruct (normalize_in ys amin amax NE SP) as (l & E & L & F). unfold restrict. cbn [String.eqb Ascii.eqb Bool.eqb].
  rewrite E. cbn [bind]. eexists. split; [reflexivity|]. split; [now rewrite map_length|]. apply Forall_forall. intros o Ho.
  apply in_map_iff in Ho. destruct Ho as (x & <- & Hx). rewrite Forall_forall in F. destruct (F x Hx) as (t & -> & T).
  exists (shift_inv mn mx t). split; [reflexivity|]. now apply shift_inv_in.
Qed.
Theorem C53_sigmoid ys mn mx amin amax st : mn <= mx -> ys <> [] -> spread ys amin amax ->
  exists out, restrict ys mn mx amin amax "sigmoid" st = Ok out /\ length out = length ys /\ Forall (within mn mx) out.
Proof.
  intros H NE SP. destruct (normalize_in ys amin amax NE SP) as (l & E & L & F). unfold restrict. cbn [String.eqb Ascii.eqb Bool.eqb].
  rewrite E. cbn [bind]. eexists. split; [reflexivity|]. split; [now rewrite map_length|]. apply Forall_forall. intros o Ho.
  apply in_map_iff in Ho. destruct Ho as (x & <- & Hx). rewrite Forall_forall in F. destruct (F x Hx) as (t & -> & T).
  eexists. split; [reflexivity|]. pose proof (sigmoid_in (shift_inv (- st) st t)). apply shift_inv_in; [auto|lra].
Qed.

(** C53.  Every method: all values come out finite and within the limits, one for each input, provided the
    limits are not equal and the data (with the given outer bounds) are not all the same. *)
Theorem C53_restrict ys mn mx amin amax method st : In method methods -> mn < mx -> ys <> [] -> spread ys amin amax ->
  exists out, restrict ys mn mx amin amax method st = Ok out /\ length out = length ys /\ Forall (within mn mx) out.
Proof.
  intros M H NE SP.
  assert (P : forall f, (forall x, within mn mx (f x)) -> exists out, Ok (map f ys) = Ok out /\ length out = length ys /\ Forall (within mn mx) out).
  { intros f Hf. eexists. split; [reflexivity|]. split; [apply map_length|]. apply Forall_forall. intros o Ho.
    apply in_map_iff in Ho. destruct Ho as (x & <- & _). apply Hf. }
  destruct M as [<-|[<-|[<-|[<-|[<-|[]]]]]].
  - apply C53_minmax; auto. lra.
  - apply P. intros x. exists (clip x mn mx). split; [reflexivity|]. apply C53_clip. lra.
  - apply P. intros x. now apply C53_smoothclamp.
  - apply P. intros x. destruct (C53_sigmoidclamp mn mx x H) as (v & E & V). exists v. split; [exact E|lra].
  - apply C53_sigmoid; auto. lra.
Qed.
(** An unknown method is refused. *)
Theorem C53_unknown_method ys mn mx amin amax method st : ~ In method methods -> restrict ys mn mx amin amax method st = Err ENotImpl.
Proof.
  intros H. unfold restrict. cbn [methods In] in H.
  repeat match goal with |- context [String.eqb method ?m] => destruct (String.eqb_spec method m); [subst; tauto|] end. reflexivity.
Qed.

(** C53.  The flexion angle itself: always within its limits, whatever coordinate comes in. *)
Theorem C53_flexion mn mx method : In method methods -> mn < mx ->
  (forall qs, qs <> [] -> exists out, apply_rom mn mx method qs = Ok out /\ length out = length qs /\ Forall (within mn mx) out) /\
  (forall q, exists o, coordinate_vector_to_q_suntay mn mx method q = Ok [o] /\ within mn mx o).
Proof.
  intros M H. assert (A : forall qs, qs <> [] -> exists out, apply_rom mn mx method qs = Ok out /\ length out = length qs /\ Forall (within mn mx) out).
  { intros qs NE. apply C53_restrict; auto. exists (- PI), PI. pose proof PI_RGT_0. split; [lra|]. auto. }
  split; auto. intros q. destruct (A [wrap_to_pi q]) as (out & E & L & F); [discriminate|].
  destruct out as [|o [|? ?]]; try discriminate. inversion F; subst. exists o. auto.
Qed.
Example C53_flexion_example : exists o, coordinate_vector_to_q_suntay (-1/10) 2 "minmax" 100 = Ok [o] /\ within (-1/10) 2 o.
Proof. apply C53_flexion; [cbn; auto|lra]. Qed.

(** ** Where the values are not finite *)
Theorem C53_equal_limits_refuted x v :
  smoothclamp v v x = None /\ sigmoidclamp v v x = None.
Proof. unfold smoothclamp, sigmoidclamp, rdiv. replace (v - v) with 0 by ring. destruct (Req_EM_T 0 0); [split; reflexivity|lra]. Qed.
Lemma lmin_repeat c n : lmin c (repeat c n) = c.
Proof. induction n; cbn; [reflexivity|]. rewrite Rmin_left by lra. exact IHn. Qed.
Lemma lmax_repeat c n : lmax c (repeat c n) = c.
Proof. induction n; cbn; [reflexivity|]. rewrite Rmax_left by lra. exact IHn. Qed.
Theorem C53_constant_data_refuted c n mn mx st : exists out,
  restrict (repeat c (S n)) mn mx None None "minmax" st = Ok out /\ Forall (fun o => o = None) out /\ length out = S n.
Proof.
  unfold restrict. cbn [String.eqb Ascii.eqb Bool.eqb]. unfold normalize. cbn [repeat]. rewrite lmin_repeat, lmax_repeat.
  eexists. split; [reflexivity|]. split.
  - rewrite map_map. apply Forall_forall. intros o Ho. apply in_map_iff in Ho. destruct Ho as (x & <- & Hx).
    assert (shift c c x = None) as ->; [|reflexivity].
    unfold shift, rdiv. destruct (Req_EM_T (c - c) 0); [reflexivity|lra].
  - now rewrite !map_length; cbn; rewrite repeat_length.
Qed.

(** ** The functions of the flexion angle *)
Lemma interp_in mn mx x : forall pts x0 y0, mn <= y0 <= mx -> Forall (fun p => mn <= snd p <= mx) pts ->
  StronglySorted Rlt (x0 :: map fst pts) -> mn <= interp_from x0 y0 pts x <= mx.
Proof.
  induction pts as [|[x1 y1] pts IH]; intros x0 y0 Y F SS; cbn [interp_from]; [auto|].
  inversion F as [|? ? Y1 F']; subst. cbn [snd] in Y1. cbn [map fst] in SS. inversion SS as [|? ? SS' FA]; subst. inversion FA as [|? ? L _]; subst.
  destruct (Rle_dec x x0); [auto|]. destruct (Rle_dec x x1); [|now apply IH].
  assert (I : 0 < / (x1 - x0)) by (apply Rinv_0_lt_compat; lra).
  assert (T : 0 <= (x - x0) / (x1 - x0) <= 1).
  { unfold Rdiv. split; [apply Rmult_le_pos; lra|]. apply (Rmult_le_reg_r (x1 - x0)); [lra|]. rewrite Rmult_assoc, Rinv_l by lra. lra. }
  nra.
Qed.
Lemma linspace_sorted a b n : a < b -> (2 <= n)%nat -> StronglySorted Rlt (linspace a b n).
Proof.
  intros H N. unfold linspace. assert (P : 0 < INR (n - 1)) by (apply lt_0_INR; lia).
  set (m := INR (n - 1)) in *. clearbody m. clear N.
  assert (G : forall k, StronglySorted Rlt (map (fun i => a + (b - a) * INR i / m) (seq k n))); [|apply G].
  induction n as [|n IH]; intros k; cbn [seq map]; constructor; auto.
  apply Forall_forall. intros y Hy. apply in_map_iff in Hy. destruct Hy as (i & <- & Hi). apply in_seq in Hi.
  assert (INR k < INR i) by (apply lt_INR; lia). assert (0 < / m) by now apply Rinv_0_lt_compat.
  assert (INR k * / m < INR i * / m) by now apply Rmult_lt_compat_r. unfold Rdiv. rewrite !Rmult_assoc. nra.
Qed.

Lemma all_some mn mx : forall l, Forall (within mn mx) l -> exists ys, l = map Some ys /\ Forall (fun y => mn <= y <= mx) ys.
Proof.
  induction l as [|o l IH]; intros F; [exists []; split; [reflexivity|constructor]|]. inversion F as [|? ? (v & -> & V) F']; subst.
  destruct (IH F') as (ys & -> & G). exists (v :: ys). split; [reflexivity|]. constructor; auto.
Qed.
Lemma map_fst_combine {A B} : forall (xs : list A) (ys : list B), length xs = length ys -> map fst (combine xs ys) = xs.
Proof. induction xs; destruct ys; cbn; intros; try discriminate; auto. f_equal. apply IHxs. congruence. Qed.

(** C53.  Gaussian-process functions: whatever is drawn and whatever the flexion angle. *)
Theorem C53_gaussian_process mn mx large a b n draw : mn <= mx -> 0 < large -> a < b -> (2 <= n)%nat -> length draw = n ->
  exists ys, gp_init mn mx large draw = Ok (map Some ys) /\ length ys = n /\
    forall q, within mn mx (interp (combine (linspace a b n) ys) q).
Proof.
  intros H HL AB N LD. destruct (C53_minmax draw mn mx (Some (- large)) (Some large) 3) as (out & E & L & F); auto.
  - destruct draw; [cbn in LD; lia|discriminate].
  - exists (- large), large. split; [lra|]. auto.
  - destruct (all_some _ _ _ F) as (ys & -> & G). rewrite map_length in L. exists ys. split; [exact E|]. split; [congruence|]. intros q.
    assert (LL : length (linspace a b n) = n) by (unfold linspace; now rewrite map_length, seq_length).
    pose proof (linspace_sorted a b n AB N) as SS. rewrite <- (map_fst_combine (linspace a b n) ys) in SS by congruence.
    assert (FP : Forall (fun p => mn <= snd p <= mx) (combine (linspace a b n) ys)).
    { apply Forall_forall. intros [x y] Hp. apply in_combine_r in Hp. rewrite Forall_forall in G. now apply G. }
    destruct (combine (linspace a b n) ys) as [|[x0 y0] pts] eqn:EC.
    + apply (f_equal (@length _)) in EC. rewrite combine_length, LL in EC. cbn in EC. lia.
    + cbn [interp]. eexists. split; [reflexivity|]. inversion FP; subst. now apply interp_in.
Qed.

(** C53.  Polynomials: the fitted bounds never coincide, and every value stays within the limits even at angles
    at which no bound was fitted. *)
Lemma lmin_lmax y r : lmin y r <= lmax y r.
Proof. pose proof (lmin_le r y y (or_introl eq_refl)). pose proof (le_lmax r y y (or_introl eq_refl)). lra. Qed.
Lemma poly_init_bounds order bias xs factors q0 scale p : (forall s, scale = Some s -> 0 < s) ->
  poly_init order bias xs factors q0 scale = Ok p -> pp_amin p < pp_amax p.
Proof.
  intros HS. unfold poly_init. destruct (map _ xs) as [|v r]; [discriminate|]. intros E. injection E as <-. cbn [pp_amin pp_amax].
  pose proof (lmin_lmax v r). assert (0 < / 10 ^ 6) by (apply Rinv_0_lt_compat; lra).
  destruct scale as [s|]; [|lra]. specialize (HS s eq_refl). nra.
Qed.
Theorem C53_scale_positive method normal uniform s : 0 <= uniform -> scale_delta method normal uniform = Ok s -> 0 < s.
Proof.
  unfold scale_delta. intros U. destruct (String.eqb _ _).
  - intros E. injection E as <-. pose proof (Rmax_r (normal + 1 / 2) 1). lra.
  - destruct (String.eqb _ _); [|discriminate]. intros E. injection E as <-. unfold Rdiv. rewrite Rmult_1_l. apply Rinv_0_lt_compat. lra.
Qed.
Theorem C53_polynomial order bias xs factors q0 scale p mn mx q : (forall s, scale = Some s -> 0 < s) -> mn <= mx ->
  poly_init order bias xs factors q0 scale = Ok p ->
  exists v, poly_apply order bias mn mx p q = Ok [Some v] /\ mn <= v <= mx.
Proof.
  intros HS H E. pose proof (poly_init_bounds _ _ _ _ _ _ _ HS E) as B. unfold poly_apply, poly_method.
  destruct (Nat.eqb order 0).
  - eexists. split; [reflexivity|]. now apply C53_clip.
  - set (y := poly _ _ _). destruct (C53_minmax [y] mn mx (Some (pp_amin p)) (Some (pp_amax p)) 3) as (out & E' & L & F); auto; [discriminate| |].
    + exists (pp_amin p), (pp_amax p). auto.
    + destruct out as [|o [|? ?]]; try discriminate. inversion F as [|? ? (v & -> & V) _]; subst. exists v. auto.
Qed.
(** With centering the value is zero at the centre, and the range is that of differences. *)
Theorem C53_polynomial_centered_partial order bias xs factors q0 scale p mn mx center q : (forall s, scale = Some s -> 0 < s) -> mn <= mx ->
  poly_init order bias xs factors q0 scale = Ok p ->
  within (- (mx - mn)) (mx - mn) (poly_apply_centered order bias mn mx center p q) /\
  poly_apply_centered order bias mn mx center p center = Some 0.
Proof.
  intros HS H E. destruct (C53_polynomial _ _ _ _ _ _ _ mn mx q HS H E) as (v & Ev & V).
  destruct (C53_polynomial _ _ _ _ _ _ _ mn mx center HS H E) as (w & Ew & W).
  unfold poly_apply_centered. rewrite Ev, Ew. cbn [the]. split; [|f_equal; ring]. exists (v - w). split; [reflexivity|lra].
Qed.
(** So a centred polynomial can leave the configured limits. *)
Theorem C53_polynomial_centered_refuted : exists order bias xs factors q0 p mn mx center q v,
  poly_init order bias xs factors q0 None = Ok p /\ factory_center None xs = Ok center /\ mn < mx /\ In q xs /\
  poly_apply_centered order bias mn mx center p q = Some v /\ v < mn.
Proof.
  exists 1%nat, true, [0; 1], [0; 1], 0, (mkPoly 0 (1 + / 10 ^ 6) [0; 1] 0), 0, 1, (1 / 2), 0, (0 - (1 / 2) / (1 + / 10 ^ 6)).
  assert (P : 0 < / 10 ^ 6) by (apply Rinv_0_lt_compat; lra).
  split; [|split; [|split; [lra|split; [left; reflexivity|split]]]].
  - unfold poly_init, poly, poly_powers. cbn [seq map combine fold_right fst snd pow]. unfold lmin, lmax. cbn [fold_left].
    f_equal. f_equal; [rewrite Rmin_left by lra; lra|rewrite Rmax_right by lra; lra].
  - unfold factory_center, lmin, lmax. cbn [fold_left]. rewrite Rmin_left, Rmax_right by lra. f_equal. lra.
  - unfold poly_apply_centered, poly_apply, restrict, poly_method. cbn [Nat.eqb String.eqb Ascii.eqb Bool.eqb normalize pp_amin pp_amax pp_factors pp_q0].
    unfold lmin, lmax. cbn [fold_left]. unfold poly, poly_powers. cbn [seq map combine fold_right fst snd].
    set (e := / 10 ^ 6) in *. clearbody e.
    replace (0 * (0 - 0) ^ 0 + (1 * (0 - 0) ^ 1 + 0)) with 0 by ring. replace (0 * (1 / 2 - 0) ^ 0 + (1 * (1 / 2 - 0) ^ 1 + 0)) with (1 / 2) by field.
    rewrite !Rmin_left by lra. rewrite !Rmax_left by lra. unfold shift. rewrite !rdiv_some by lra. cbn [bind map omap the].
    f_equal. unfold shift_inv. field. lra.
  - assert (0 < (1 / 2) / (1 + / 10 ^ 6)) by (apply Rdiv_lt_0_compat; lra). lra.
Qed.
(** The centre is the middle of the flexion range of the first registration, also for later ones. *)
Theorem C53_center_reused_refuted : exists xs1 xs2 c1 c2 fresh,
  factory_center None xs1 = Ok c1 /\ factory_center (Some c1) xs2 = Ok c2 /\ factory_center None xs2 = Ok fresh /\ c2 <> fresh.
Proof.
  exists [0; 2], [0; 4], 1, 1, 2. unfold factory_center, lmin, lmax. cbn [fold_left]. rewrite !Rmin_left, !Rmax_right by lra.
  repeat split; try (f_equal; lra); lra.
Qed.

(** C53.  Networks, and constants. *)
Theorem C53_network mn mx net net_center : mn < mx ->
  mn < mlp_apply mn mx net < mx /\ - (mx - mn) < mlp_apply_centered mn mx net net_center < mx - mn.
Proof.
  intros H. pose proof (sigmoid_in net). pose proof (sigmoid_in net_center). unfold mlp_apply_centered, mlp_apply, shift_inv. nra.
Qed.
Theorem C53_constant_refuted : exists value mn mx q, mn < mx /\ ~ mn <= constant_apply value q <= mx.
Proof. exists 2, 0, 1, 0. unfold constant_apply. lra. Qed.
Print Assumptions C53_restrict.
