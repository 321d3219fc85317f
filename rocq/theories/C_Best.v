(** * C73: the best parameters by tracked metrics. *)
From Coq Require Import Reals Lra String ZArith Lia Bool Arith List Permutation Sorted.
From Verif Require Import Prelude M_Util M_Rcmg M_Train M_Disk S_Disk M_Callbacks S_Callbacks C_Queue C_Callbacks.
Import ListNotations.
Local Open Scope string_scope.
Local Open Scope list_scope.
Local Open Scope nat_scope.

(** ** Queues of numbers *)
Definition rltb (a b : R) : bool := if Rlt_dec a b then true else false.
Definition fin {D} (x : R * D) : flt * D := (Fin (fst x), snd x).
Lemma insert_fin {D} (x : R * D) l : insert_sorted flt_lt (fin x) (map fin l) = map fin (insert_sorted rltb x l).
Proof.
  induction l as [|y l IH]; [reflexivity|]. cbn [map insert_sorted]. unfold rltb at 1. cbn [fin fst flt_lt]. destruct (Rlt_dec (fst x) (fst y)); cbn [map]; [reflexivity|].
  change (Fin (fst x), snd x) with (fin x). now rewrite IH.
Qed.
Lemma sort_fin {D} (l : list (R * D)) : py_sort flt_lt (map fin l) = map fin (py_sort rltb l).
Proof.
  unfold py_sort. change (@nil (flt * D)) with (map (@fin D) []). generalize (@nil (R * D)). induction l as [|x l IH]; intros acc; [reflexivity|].
  cbn [map fold_left]. rewrite insert_fin. apply IH.
Qed.
Lemma q_insert_fin {D} k (l : list (R * D)) x : q_insert flt_lt k (map fin l) (fin x) = match q_insert rltb k l x with Ok q => Ok (map fin q) | Err e => Err e end.
Proof.
  unfold q_insert. rewrite map_length. change [fin x] with (map (@fin D) [x]). rewrite <- map_app, sort_fin, <- map_rev. destruct (length l <? k); [reflexivity|].
  destruct (rev l) as [|w r]; [reflexivity|]. cbn [map]. unfold rltb at 1. cbn [fin fst flt_lt]. destruct (Rlt_dec (fst x) (fst w)); [|reflexivity].
  rewrite <- map_rev. replace (map fin (rev r) ++ [fin x]) with (map (@fin D) (rev r ++ [x])) by apply map_app. fold (@fin D x). rewrite sort_fin. reflexivity.
Qed.
Lemma q_run_fin {D} k (h : list (R * D)) : q_run flt_lt k (map fin h) = match q_run rltb k h with Ok q => Ok (map fin q) | Err e => Err e end.
Proof.
  unfold q_run. induction h as [|x h IH] using rev_ind; [reflexivity|]. rewrite map_app, !foldM_app, IH. cbn [map].
  destruct (foldM (q_insert rltb k) [] h) as [q|e]; [|reflexivity]. cbn [bind foldM]. rewrite q_insert_fin. destruct (q_insert rltb k q x); reflexivity.
Qed.

Section Best.
Context {Par Opt Batch : Type}.
Variable has_nan : Par -> bool.
Variable elapsed : nat -> R.
Variable tags : nat -> option (list string).
Variable fmt : flt -> string.
Variable uid : string.
Notation cb := (cb Par Opt Batch).
Notation rec := (@rec Par Opt).
Notation called := (@called Par Opt Batch has_nan elapsed tags).
Notation step := (@cb_step Par Opt Batch has_nan elapsed tags).

Lemma tracked_fin m zooms (xs : list R) : Forall2 (value_at (MDict m)) zooms (map Fin xs) -> forall s,
  tracked m zooms (Fin s) = Ok (Fin (s + fold_right Rplus 0 xs)%R).
Proof.
  intros H. remember (map Fin xs) as vs eqn:E. revert xs E. induction H as [|z v zooms vs V _ IH]; intros [|x xs] E s; try discriminate; cbn [tracked fold_right].
  - now rewrite Rplus_0_r.
  - injection E as -> E. apply zoom_value in V. unfold zoom_into_metrices. rewrite V. cbn [bind flt_add]. rewrite (IH xs E). do 2 f_equal. ring.
Qed.
Lemma tracked_nan m zooms vs : Forall2 (value_at (MDict m)) zooms vs -> forall s, s = NaN \/ In NaN vs -> tracked m zooms s = Ok NaN.
Proof.
  induction 1 as [|z v zooms vs V _ IH]; intros s N; cbn [tracked].
  - destruct N as [->|[]]. reflexivity.
  - apply zoom_value in V. unfold zoom_into_metrices. rewrite V. cbn [bind]. apply IH.
    destruct N as [->|[->|N]]; [left; reflexivity|left; destruct s; reflexivity|auto].
Qed.
Lemma step_scored path k zooms every value q e m p g b o c' m' kl x : step (CSave path k (Some zooms) every value q) e m p g b o = Ok (c', m', kl) ->
  scored zooms every (mkRec e p o g, m) x ->
  exists q', q_insert flt_lt k q (x, (p, e)) = Ok q' /\ c' = CSave path k (Some zooms) every value q'.
Proof.
  intros H SC. unfold scored in SC. cbn [fst snd r_e] in SC. cbn [cb_step] in H. unfold divides in H. destruct (every =? 0)%Z; [discriminate|].
  cbn [bind] in H. destruct (Z.eqb_spec (Z.of_nat e mod every) 0) as [E|E].
  - destruct SC as [SC _]. specialize (SC E). apply bind_Ok in H. destruct H as (vv & HV & H). apply bind_Ok in HV. destruct HV as (v & HT & HV).
    apply bind_Ok in HV. destruct HV as (v' & HD & HV). injection HV as <-. cbn [fst snd] in H.
    apply bind_Ok in H. destruct H as (q' & HQ & H). injection H as <- _ _. exists q'. split; [|reflexivity].
    replace x with v'; [exact HQ|]. destruct SC as [(xs & F & ->)|(vs & F & N & ->)].
    + rewrite (tracked_fin _ _ _ F) in HT. injection HT as <-. pose proof (Forall2_length _ _ _ F) as L. rewrite map_length in L.
      unfold flt_div in HD. destruct (length zooms) eqn:EZ; [discriminate|]. injection HD as <-. unfold mean. rewrite <- L, Rplus_0_l. reflexivity.
    + rewrite (tracked_nan _ _ _ F) in HT by auto. injection HT as <-. unfold flt_div in HD. destruct (length zooms); [discriminate|]. now injection HD as <-.
  - destruct SC as [_ SC]. rewrite (SC E). cbn [bind fst snd] in H. apply bind_Ok in H. destruct H as (q' & HQ & H). injection H as <- _ _. exists q'. auto.
Qed.
Definition entry (cx : (rec * metrics) * flt) : flt * (Par * nat) := (snd cx, (r_p (fst (fst cx)), r_e (fst (fst cx)))).
Lemma called_queue path k zooms every h c : called (CSave path k (Some zooms) every 0%R []) h c -> forall xs, Forall2 (scored zooms every) h xs ->
  exists q, q_run flt_lt k (map entry (combine h xs)) = Ok q /\ c = CSave path k (Some zooms) every 0%R q.
Proof.
  induction 1 as [|h c e m p g b o c' m' kl C IH ST]; intros xs F.
  - inversion F. subst. exists []. split; reflexivity.
  - apply Forall2_app_inv_l in F. destruct F as (xs1 & xs2 & F1 & F2 & ->). inversion F2 as [|? x ? ? SC F3]; subst. inversion F3; subst.
    destruct (IH xs1 F1) as (q & Q & ->). destruct (step_scored _ _ _ _ _ _ _ _ _ _ _ _ _ _ _ _ ST SC) as (q' & Q' & ->). exists q'. split; [|reflexivity].
    assert (EC : combine (h ++ [(mkRec e p o g, m)]) (xs1 ++ [x]) = combine h xs1 ++ [((mkRec e p o g, m), x)]).
    { clear - F1. induction F1; cbn [app combine]; [reflexivity|]. now rewrite IHF1. }
    rewrite EC, map_app. unfold q_run in *. rewrite foldM_app, Q. cbn [map foldM bind]. change (entry (mkRec e p o g, m, x)) with (x, (p, e)). rewrite Q'. reflexivity.
Qed.
Lemma closed_stored flag path k zooms every v q fs fs' : cb_close fmt uid flag (CSave (Some path) k zooms every v q : cb) fs = (fs', Ok tt) ->
  stem path <> "" -> no_dot (stem path) -> (forall v, no_dot (fmt v)) ->
  forall ele, In ele q -> stored (s_params fs') (params_file fmt (stem path) (length q) (snd (snd ele)) (fst ele)) (SParams (fst (snd ele))).
Proof.
  intros H P1 P2 P3 ele I. assert (C : close_all fmt uid flag [CSave (Some path) k zooms every v q : cb] fs = (fs', 1, Ok tt)) by (cbn [close_all]; rewrite H; reflexivity).
  destruct (close_all_spec fmt uid flag _ _ _ _ _ C) as (_ & _ & _ & C4 & _).
  specialize (C4 eq_refl path k zooms every v q ele (or_introl eq_refl) I). rewrite (@save_name_spec Par Opt Batch has_nan elapsed tags (fun p o _ => (p, o, NaN, [])) 0 fmt path (length q) ele P1 P2 P3) in C4. exact C4.
Qed.

Lemma rlt_props : (forall a, rltb a a = false) /\ (forall a b c, rltb a b = true -> rltb b c = true -> rltb a c = true) /\
  (forall a b c, rltb a b = true -> rltb a c = true \/ rltb c b = true).
Proof.
  unfold rltb. split; [|split].
  - intros a. destruct (Rlt_dec a a); [lra|reflexivity].
  - intros a b c. destruct (Rlt_dec a b), (Rlt_dec b c), (Rlt_dec a c); auto; lra.
  - intros a b c. destruct (Rlt_dec a b), (Rlt_dec a c), (Rlt_dec c b); auto; lra.
Qed.

(** A callback that saves the best [k] parameter sets by tracked metrics, called after every episode and then closed, has saved the
    parameters of every episode for which fewer than [k] others score better. *)
Theorem C73_best path k zooms every h c xs flag fs fs' : 0 < k -> stem path <> "" -> no_dot (stem path) -> (forall v, no_dot (fmt v)) ->
  called (CSave (Some path) k (Some zooms) every 0%R []) h c -> Forall2 (scored zooms every) h (map Fin xs) ->
  cb_close fmt uid flag c fs = (fs', Ok tt) ->
  forall i r m x, nth_error h i = Some (r, m) -> nth_error xs i = Some x ->
    (forall js, NoDup js -> Forall (ahead xs i) js -> length js < k) ->
    stored (s_params fs') (params_file fmt (stem path) (min k (length h)) (r_e r) (Fin x)) (SParams (r_p r)).
Proof.
  intros K P1 P2 P3 C F CL i r m x HI XI FEW. destruct (called_queue _ _ _ _ _ _ C _ F) as (q & Q & ->).
  set (H := map (fun cx : (rec * metrics) * R => (snd cx, (r_p (fst (fst cx)), r_e (fst (fst cx))))) (combine h xs)).
  assert (LX : length xs = length h) by (apply Forall2_length in F; rewrite map_length in F; lia).
  assert (EH : map entry (combine h (map Fin xs)) = map fin H).
  { unfold H. rewrite map_map. clear. revert xs. induction h as [|a h IH]; intros [|x xs]; cbn [combine map]; [reflexivity..|]. rewrite IH. reflexivity. }
  rewrite EH, q_run_fin in Q. destruct rlt_props as (T1 & T2 & T3).
  destruct (C49_queue_best rltb T1 T2 T3 k H K) as (l & QL & B). rewrite QL in Q. injection Q as <-.
  assert (LH : length H = length h) by (unfold H; rewrite map_length, combine_length; lia).
  assert (NH : forall j y rj mj, nth_error h j = Some (rj, mj) -> nth_error xs j = Some y -> nth_error H j = Some (y, (r_p rj, r_e rj))).
  { intros j y rj mj A1 A2. unfold H. assert (E : nth_error (combine h xs) j = Some ((rj, mj), y)).
    { clear - A1 A2. revert xs j A1 A2. induction h as [|a h IH]; intros [|z xs] [|j] A1 A2; try discriminate; cbn [combine nth_error] in *; [congruence|]. eauto. }
    apply (map_nth_error (fun cx : (rec * metrics) * R => (snd cx, (r_p (fst (fst cx)), r_e (fst (fst cx)))))) in E. exact E. }
  assert (HX : forall j v, nth_error H j = Some v -> nth_error xs j = Some (fst v)).
  { intros j v A. assert (J : j < length h) by (rewrite <- LH; apply nth_error_Some; congruence).
    destruct (nth_error h j) as [[rj mj]|] eqn:E1; [|apply nth_error_None in E1; lia].
    destruct (nth_error xs j) as [y|] eqn:E2; [|apply nth_error_None in E2; lia].
    rewrite (NH _ _ _ _ E1 E2) in A. injection A as <-. reflexivity. }
  destruct B as (ps & L & M & SS & O).
  assert (AH : forall j, better rltb H j i -> ahead xs i j).
  { intros j (a & b & A & B & W). rewrite (NH _ _ _ _ HI XI) in B. injection B as <-. cbn [fst] in W. exists (fst a), x. split; [now apply HX|]. split; [exact XI|].
    unfold rltb in W. destruct W as [W|[W1 W2]].
    - destruct (Rlt_dec (fst a) x); [left; auto|discriminate].
    - destruct (Rlt_dec x (fst a)); [discriminate|]. destruct (Rlt_dec (fst a) x); [left; auto|]. right. split; [lra|auto]. }
  assert (AS : forall j, ~ better rltb H j j).
  { intros j (a & b & A & B & [W|[_ W]]); [|lia]. rewrite A in B. injection B as <-. rewrite T1 in W. discriminate. }
  assert (ND : NoDup ps).
  { clear - SS AS. induction SS as [|a ps SS IH F]; constructor; auto. intros I. rewrite Forall_forall in F. exact (AS a (F a I)). }
  assert (BD : forall j, In j ps -> j < length h).
  { intros j J. destruct (nth_of _ _ _ _ M J) as (y & Y & _). rewrite <- LH. apply nth_error_Some. congruence. }
  assert (IL : i < length h) by (apply nth_error_Some; congruence).
  assert (IP : In i ps).
  { destruct (in_dec Nat.eq_dec i ps) as [|N]; auto. exfalso.
    assert (FEWps : length ps < k).
    { apply FEW; auto. apply Forall_forall. intros j J. apply AH, O; auto. rewrite LH. auto. }
    assert (NoDup (i :: ps)) as N2 by (constructor; auto).
    assert (incl (i :: ps) (seq 0 (length h))) as IC by (intros z [<-|Z]; apply in_seq; [lia|specialize (BD z Z); lia]).
    pose proof (NoDup_incl_length N2 IC) as LL. rewrite seq_length in LL. cbn [length] in LL. lia. }
  assert (IN : In (x, (r_p r, r_e r)) l).
  { destruct (nth_of _ _ _ _ M IP) as (y & Y & YI). rewrite (NH _ _ _ _ HI XI) in Y. injection Y as <-. exact YI. }
  assert (LL : length (map fin l) = min k (length h)).
  { rewrite map_length. apply (f_equal (@length _)) in M. rewrite !map_length in M. lia. }
  pose proof (closed_stored _ _ _ _ _ _ _ _ _ CL P1 P2 P3 (fin (x, (r_p r, r_e r))) (in_map fin _ _ IN)) as ST.
  rewrite LL in ST. exact ST.
Qed.

(** With one parameter set the first episode of the smallest score is saved, and scores that are not a number are passed over,
    unless it is the first one (see C73_nan_metric_refuted). *)
Theorem C73_best_one path zooms every h c x0 xs flag fs fs' : stem path <> "" -> no_dot (stem path) -> (forall v, no_dot (fmt v)) ->
  called (CSave (Some path) 1 (Some zooms) every 0%R []) h c -> Forall2 (scored zooms every) h (Fin x0 :: xs) ->
  cb_close fmt uid flag c fs = (fs', Ok tt) ->
  exists i r m x, nth_error h i = Some (r, m) /\ nth_error (Fin x0 :: xs) i = Some (Fin x) /\
    (forall j y, nth_error (Fin x0 :: xs) j = Some (Fin y) -> (x <= y)%R /\ (j < i -> (x < y)%R)) /\
    stored (s_params fs') (stem path ++ ".pickle")%string (SParams (r_p r)).
Proof.
  intros P1 P2 P3 C F CL. destruct (called_queue _ _ _ _ _ _ C _ F) as (q & Q & ->).
  assert (X : exists i r m x, nth_error h i = Some (r, m) /\ nth_error (Fin x0 :: xs) i = Some (Fin x) /\
    (forall j y, nth_error (Fin x0 :: xs) j = Some (Fin y) -> (x <= y)%R /\ (j < i -> (x < y)%R)) /\ q = [(Fin x, (r_p r, r_e r))]).
  2:{ destruct X as (i & r & m & x & X1 & X2 & X3 & ->). exists i, r, m, x. split; [exact X1|]. split; [exact X2|]. split; [exact X3|].
      exact (closed_stored _ _ _ _ _ _ _ _ _ CL P1 P2 P3 _ (or_introl eq_refl)). }
  assert (NI : Forall (fun v => v = NaN \/ exists y, v = Fin y) (Fin x0 :: xs)).
  { clear - F. induction F as [|a v h0 xs0 SC F IH]; constructor; auto. unfold scored in SC. destruct SC as [S1 S2].
    destruct (Z.eq_dec (Z.of_nat (r_e (fst a)) mod every) 0) as [E|E]; [|rewrite (S2 E); right; eauto].
    destruct (S1 E) as [(ys & _ & ->)|(ys & _ & _ & ->)]; [right; eauto|left; auto]. }
  clear C CL. revert h q F Q NI. induction xs as [|v xs IH] using rev_ind; intros h q F Q NI.
  - inversion F as [|[r m] ? ? ? SC F']; subst. inversion F'; subst. cbn in Q. injection Q as <-. exists 0, r, m, x0. split; [reflexivity|]. split; [reflexivity|].
    split; [|reflexivity]. intros [|[|j]] y Y; try discriminate. injection Y as <-. split; [lra|lia].
  - change (Fin x0 :: xs ++ [v]) with ((Fin x0 :: xs) ++ [v]) in *. apply Forall2_app_inv_r in F. destruct F as (h1 & h2 & F1 & F2 & ->).
    inversion F2 as [|[r m] ? ? ? SC F3]; subst. inversion F3; subst. apply Forall_app in NI. destruct NI as [NI1 NI2].
    assert (EC : combine (h1 ++ [(r, m)]) ((Fin x0 :: xs) ++ [v]) = combine h1 (Fin x0 :: xs) ++ [((r, m), v)]).
    { clear - F1. induction F1; cbn [app combine]; [reflexivity|]. now rewrite IHF1. }
    rewrite EC, map_app in Q. unfold q_run in *. rewrite foldM_app in Q. apply bind_Ok in Q. destruct Q as (q1 & Q1 & Q).
    destruct (IH h1 q1 F1 Q1 NI1) as (i & r1 & m1 & x & I1 & I2 & I3 & ->). pose proof (Forall2_length _ _ _ F1) as LF.
    assert (IL : i < length (Fin x0 :: xs)) by (apply nth_error_Some; congruence).
    cbn [map foldM bind] in Q. apply bind_Ok in Q. destruct Q as (q2 & Q2 & Q). injection Q as <-.
    unfold q_insert in Q2. cbn [length Nat.ltb Nat.leb rev app] in Q2. change (fst (entry (r, m, v))) with v in Q2. cbn [fst] in Q2.
    destruct (flt_lt v (Fin x)) eqn:LT.
    + injection Q2 as <-. inversion NI2 as [|? ? [->|[y ->]] _]; subst; [discriminate|]. cbn [flt_lt] in LT. destruct (Rlt_dec y x) as [LT'|]; [|discriminate].
      exists (length h1), r, m, y. split; [now rewrite nth_error_app2, Nat.sub_diag by lia|]. split; [rewrite LF, nth_error_app2, Nat.sub_diag by lia; reflexivity|].
      split; [|reflexivity]. intros j z Z. destruct (Nat.lt_ge_cases j (length (Fin x0 :: xs))) as [J|J].
      * rewrite nth_error_app1 in Z by auto. destruct (I3 j z Z) as [A _]. split; [lra|intros; lra].
      * rewrite nth_error_app2 in Z by auto. destruct (j - length (Fin x0 :: xs)) as [|jj]; [|destruct jj; discriminate]. injection Z as <-. split; [lra|lia].
    + injection Q2 as <-. exists i, r1, m1, x. split; [rewrite nth_error_app1 by lia; auto|]. split; [rewrite nth_error_app1 by auto; auto|]. split; [|reflexivity].
      intros j z Z. destruct (Nat.lt_ge_cases j (length (Fin x0 :: xs))) as [J|J].
      * rewrite nth_error_app1 in Z by auto. auto.
      * rewrite nth_error_app2 in Z by auto. destruct (j - length (Fin x0 :: xs)) as [|jj]; [|destruct jj; discriminate]. injection Z as ->.
        cbn [flt_lt] in LT. destruct (Rlt_dec z x); [discriminate|]. split; [lra|lia].
Qed.

(** The calls that a training run makes are of this kind. *)
Theorem C73_called c0 h c : fresh c0 -> (lived has_nan elapsed tags c0 h c <-> exists ms, length ms = length h /\ called c0 (combine h ms) c).
Proof.
  intros FR. split.
  - induction 1 as [_|h c e m p g b o c' m' k L IH ST]; [exists []; split; [reflexivity|constructor]|].
    destruct IH as (ms & LM & C). exists (ms ++ [m]). split; [rewrite !app_length; cbn; lia|].
    assert (EC : combine (h ++ [mkRec e p o g]) (ms ++ [m]) = combine h ms ++ [(mkRec e p o g, m)]).
    { clear - LM. revert ms LM. induction h as [|a h IH]; intros [|z ms] LM; try discriminate; [reflexivity|]. cbn [app combine]. rewrite IH by (cbn in LM; lia). reflexivity. }
    rewrite EC. econstructor; eauto.
  - intros (ms & LM & C). replace h with (map fst (combine h ms)).
    2:{ clear - LM. revert ms LM. induction h as [|a h IH]; intros [|z ms] LM; try discriminate; [reflexivity|]. cbn [map combine fst]. rewrite IH by (cbn in LM; lia). reflexivity. }
    induction C as [|hm c e m p g b o c' m' k C IH ST]; [constructor; auto|]. rewrite map_app. cbn [map fst]. econstructor; eauto.
Qed.
End Best.

(** Example: three episodes, the second one evaluated best. *)
Section Ex.
Local Open Scope R_scope.
Definition b_met (x : R) : metrics := [("val", MDict [("mae", MNum (Fin x))])].
Definition b_rec (e : nat) : @rec nat unit := mkRec e (10 + e)%nat tt [].
Example C73_best_scored : Forall2 (scored [["val"; "mae"]] 1) [(b_rec 0, b_met 3); (b_rec 1, b_met 2)] (map Fin [3; 2]).
Proof.
  assert (H : forall e x, scored [["val"; "mae"]] 1 (b_rec e, b_met x) (Fin x)).
  { intros e x. split; [|intros N; exfalso; apply N; apply Z.mod_1_r]. intros _. left. exists [x]. split.
    - constructor; [|constructor]. econstructor; [reflexivity|]. econstructor; [reflexivity|constructor].
    - unfold mean. cbn. f_equal. field. }
  constructor; [apply H|]. constructor; [apply H|constructor].
Qed.
Example C73_best_called : exists c, called (fun _ => false) (fun _ => 0) (fun _ => None) (CSave (Some "p") 1 (Some [["val"; "mae"]]) 1 0 [] : cb nat unit unit)
  [(b_rec 0, b_met 3); (b_rec 1, b_met 2)] c.
Proof.
  set (c1 := CSave (Some "p") 1 (Some [["val"; "mae"]]) 1%Z 0 [(Fin ((0 + 3) / INR 1), (10%nat, 0%nat))] : cb nat unit unit).
  assert (H : exists c, cb_step (fun _ => false) (fun _ => 0) (fun _ => None) c1 1 (b_met 2) 11%nat [] tt tt = Ok (c, b_met 2, None)).
  { unfold c1. cbn -[Rlt_dec Rdiv Rplus INR]. destruct (Rlt_dec _ _); cbn -[Rlt_dec Rdiv Rplus INR]; eauto. }
  destruct H as [c H]. exists c. apply (called_on _ _ _ _ [(b_rec 0, b_met 3)] c1 1 (b_met 2) 11 [] tt tt _ (b_met 2) None)%nat; [|exact H].
  eapply (called_on _ _ _ _ [] _ 0 (b_met 3) 10 [] tt tt _ (b_met 3) None)%nat; [constructor|reflexivity].
Qed.
End Ex.
