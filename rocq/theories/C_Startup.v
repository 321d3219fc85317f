(** * C92: the state of the library over a process: setup(), registered joint types, identity of the experiment. *)
From Coq Require Import Reals Lra ZArith Lia String Bool List.
From Verif Require Import Prelude M_Sys M_Rand M_Config C_Union P_Tree S_Sys P_Sys P_Run C_Lookup C_Sens C_Filter C_Config M_Startup.
Import ListNotations.
Local Open Scope string_scope.
Local Open Scope list_scope.

Section Startup.
Context {A B J Gn T KI KS : Type}.
Notation jmodel := (@jmodel A B J).
Notation reg := (@reg A B J Gn).
Notation draw := (config -> A -> result B).
Notation args := (@args T KI KS).
Notation glob := (@glob A B J Gn T).
Notation call := (@call A B J T KI KS).
Variable M : @makers A B J KI KS.
Variable hexhash : T -> string.

(** What happened: the calls with their results, in order. *)
Fixpoint trace (calls : list call) (s : glob) : list (call * result unit) :=
  match calls with [] => [] | c :: r => let (s', x) := do_call M hexhash c s in (c, x) :: trace r s' end.
Fixpoint after (calls : list call) (s : glob) : glob :=
  match calls with [] => s | c :: r => after r (fst (do_call M hexhash c s)) end.
(** The last value given to a setup() that succeeded, or else [first]. *)
Fixpoint last_given {X} (field : args -> option X) (first : X) (tr : list (call * result unit)) : X :=
  match tr with
  | [] => first
  | (CSetup _ _ a, Ok _) :: r => last_given field (match field a with Some x => x | None => first end) r
  | _ :: r => last_given field first r
  end.

(** The names a setup() with these arguments registers. *)
Definition names (a : args) : list string :=
  match a_rr a with Some _ => ["rr"] | None => [] end ++
  match a_imp a with Some (_, _, Some n) => [n] | Some (_, _, None) => ["rr_imp"] | None => [] end ++
  match a_saddle a with Some _ => ["rsaddle"] | None => [] end ++
  match a_suntay a with Some (_, Some n) => [n] | Some (_, None) => ["suntay"] | None => [] end.
(** Arguments that are accepted. *)
Definition acceptable (a : args) : Prop :=
  (forall kw, a_rr a = Some kw -> kw = []) /\ (forall kw k n, a_imp a = Some (kw, k, n) -> kw = [] /\ n <> Some "default") /\
  (forall kw, a_saddle a = Some kw -> kw = []) /\ (forall k n, a_suntay a = Some (k, n) -> n <> Some "default" /\ exists dj, mk_suntay M k = Ok dj).

(** One registration with overwrite=True and the right number of motion axes. *)
Lemma reg_one (s : reg) jt dj w qd : wf_reg s -> jt <> "default" -> match qd with Some n => n | None => w end = w ->
  exists s', register_new_joint_type jt (model dj w) w qd true s = (s', Ok tt) /\ wf_reg s' /\ r_changes s' = r_changes s /\ (forall jt', jt' <> jt -> same_type s s' jt') /\
    dget String.eqb (r_types s') jt = Some (model dj w) /\ dget String.eqb (r_q s') jt = Some w /\ dget String.eqb (r_qd s') jt = Some w.
Proof.
  intros WF N E. destruct (register_new_joint_type jt (model dj w) w qd true s) as [s' r] eqn:H. exists s'.
  destruct (C60_register s jt (model dj w) w qd true s' r WF H) as (I & F & C & W' & R & _). cbv zeta in I, R. rewrite E in I, R.
  assert (r = Ok tt) by (apply I; split; [exact N|split; [reflexivity|reflexivity]]). subst r. destruct (R eq_refl) as (R1 & R2 & R3). auto 10.
Qed.
Lemma reg_default (s : reg) jm w qd ow : register_new_joint_type "default" jm w qd ow s = (s, Err EAssertion).
Proof. reflexivity. Qed.

Definition touches (ns : list string) (s s' : reg) : Prop :=
  wf_reg s' /\ r_changes s' = r_changes s /\ forall jt, ~ In jt ns -> same_type s s' jt.
Lemma touches_refl ns s : wf_reg s -> touches ns s s.
Proof. intros W. split; [exact W|]. split; [reflexivity|]. intros jt _. unfold same_type. auto. Qed.
Lemma touches_app ns ns' s s1 s2 : touches ns s s1 -> touches ns' s1 s2 -> touches (ns ++ ns') s s2.
Proof.
  intros (A1 & A2 & A3) (B1 & B2 & B3). split; [exact B1|]. split; [congruence|]. intros jt N. rewrite in_app_iff in N.
  destruct (A3 jt ltac:(tauto)) as (C1 & C2 & C3 & C4). destruct (B3 jt ltac:(tauto)) as (D1 & D2 & D3 & D4). repeat split; congruence.
Qed.
Lemma touches_more ns ns' s s' : incl ns ns' -> touches ns s s' -> touches ns' s s'.
Proof. intros I (A1 & A2 & A3). split; [exact A1|]. split; [exact A2|]. intros jt N. apply A3. intros X. apply N, I, X. Qed.
Lemma reg_touch (s : reg) jt dj w qd s' r : wf_reg s -> match qd with Some n => n | None => w end = w ->
  register_new_joint_type jt (model dj w) w qd true s = (s', r) -> touches [jt] s s' /\ (r = Ok tt <-> jt <> "default").
Proof.
  intros WF E H. destruct (C60_register s jt (model dj w) w qd true s' r WF H) as (I & F & C & W' & _). cbv zeta in I. rewrite E in I. split.
  - split; [exact W'|]. split; [exact C|]. intros jt' N. apply F. intros ->. apply N. now left.
  - rewrite I. split; [tauto|]. intros N. repeat split; auto.
Qed.
Lemma rr_touch kw (s : reg) s' r : wf_reg s -> register_rr_joint M kw s = (s', r) -> touches ["rr"] s s' /\ (r = Ok tt <-> kw = []).
Proof.
  intros W H. unfold register_rr_joint, sbind in H. destruct kw; cbn in H.
  - destruct (reg_touch s "rr" (mk_rr M) 1 None s' r W eq_refl H) as [X Y]. split; [exact X|]. rewrite Y. split; [reflexivity|discriminate].
  - injection H as <- <-. split; [now apply touches_refl|]. split; discriminate.
Qed.
Lemma imp_touch kw k n (s : reg) s' r : wf_reg s -> register_rr_imp_joint M kw k n s = (s', r) ->
  touches [match n with Some n => n | None => "rr_imp" end] s s' /\ (r = Ok tt <-> kw = [] /\ n <> Some "default").
Proof.
  intros W H. unfold register_rr_imp_joint, sbind in H. destruct kw; cbn [no_kwargs ret raise] in H.
  - destruct (reg_touch s _ (mk_imp M k) 2 (Some 2%nat) s' r W eq_refl H) as [X Y]. split; [exact X|]. rewrite Y. destruct n as [n|].
    + split; [intros N; split; [reflexivity|congruence]|intros (_ & N) ->; now apply N].
    + split; [intros _; split; [reflexivity|discriminate]|discriminate].
  - injection H as <- <-. split; [now apply touches_refl|]. split; [discriminate|intros (X & _); discriminate].
Qed.
Lemma saddle_touch kw (s : reg) s' r : wf_reg s -> register_rsaddle_joint M kw s = (s', r) -> touches ["rsaddle"] s s' /\ (r = Ok tt <-> kw = []).
Proof.
  intros W H. unfold register_rsaddle_joint, sbind in H. destruct kw; cbn [no_kwargs ret raise] in H.
  - destruct (reg_touch s "rsaddle" (mk_saddle M) 2 None s' r W eq_refl H) as [X Y]. split; [exact X|]. rewrite Y. split; [reflexivity|discriminate].
  - injection H as <- <-. split; [now apply touches_refl|]. split; discriminate.
Qed.
Lemma suntay_touch k n (s : reg) s' r : wf_reg s -> register_suntay M k n s = (s', r) ->
  touches [match n with Some n => n | None => "suntay" end] s s' /\ (r = Ok tt <-> n <> Some "default" /\ exists dj, mk_suntay M k = Ok dj).
Proof.
  intros W H. unfold register_suntay, sbind, lift in H. destruct (mk_suntay M k) as [dj|e].
  - destruct (reg_touch s _ dj 1 None s' r W eq_refl H) as [X Y]. split; [exact X|]. rewrite Y. destruct n as [n|].
    + split; [intros N; split; [congruence|eauto]|intros (N & _) ->; now apply N].
    + split; [intros _; split; [discriminate|eauto]|discriminate].
  - injection H as <- <-. split; [now apply touches_refl|]. split; [discriminate|intros (_ & dj & X); discriminate].
Qed.

Definition rr_names (a : args) := match a_rr a with Some _ => ["rr"] | None => [] end.
Definition imp_names (a : args) := match a_imp a with Some (_, _, Some n) => [n] | Some (_, _, None) => ["rr_imp"] | None => [] end.
Definition saddle_names (a : args) := match a_saddle a with Some _ => ["rsaddle"] | None => [] end.
Definition suntay_names (a : args) := match a_suntay a with Some (_, Some n) => [n] | Some (_, None) => ["suntay"] | None => [] end.
Lemma registrations_touch (a : args) (s : reg) s' r : wf_reg s -> registrations M a s = (s', r) -> touches (names a) s s' /\ (r = Ok tt <-> acceptable a).
Proof.
  intros W H. unfold registrations, sbind in H. change (names a) with (rr_names a ++ imp_names a ++ saddle_names a ++ suntay_names a). unfold acceptable.
  destruct (match a_rr a with Some kw => register_rr_joint M kw | None => ret tt end s) as [s1 r1] eqn:E1.
  assert (T1 : touches (rr_names a) s s1 /\ (r1 = Ok tt <-> forall kw, a_rr a = Some kw -> kw = [])).
  { unfold rr_names. destruct (a_rr a) as [kw|].
    - destruct (rr_touch kw s s1 r1 W E1) as [X Y]. split; [exact X|]. rewrite Y. split; [intros -> kw' [= <-]; reflexivity|auto].
    - injection E1 as <- <-. split; [now apply touches_refl|]. split; [discriminate|reflexivity]. }
  destruct T1 as [T1 G1]. destruct r1 as [[]|e1]. 2:{ injection H as <- <-. split; [eapply touches_more; [|exact T1]; apply incl_appl, incl_refl|]. split; [discriminate|]. intros (X & _). apply G1 in X. discriminate. }
  destruct (match a_imp a with Some (kw, k, name) => register_rr_imp_joint M kw k name | None => ret tt end s1) as [s2 r2] eqn:E2. pose proof (proj1 T1) as W1.
  assert (T2 : touches (imp_names a) s1 s2 /\ (r2 = Ok tt <-> forall kw k n, a_imp a = Some (kw, k, n) -> kw = [] /\ n <> Some "default")).
  { unfold imp_names. destruct (a_imp a) as [[[kw k] n]|].
    - destruct (imp_touch kw k n s1 s2 r2 W1 E2) as [X Y]. split; [destruct n; exact X|]. rewrite Y. split; [intros X' kw' k' n' [= <- <- <-]; exact X'|]. intros X'. exact (X' kw k n eq_refl).
    - injection E2 as <- <-. split; [now apply touches_refl|]. split; [discriminate|reflexivity]. }
  destruct T2 as [T2 G2]. pose proof (touches_app _ _ _ _ _ T1 T2) as T12. destruct r2 as [[]|e2].
  2:{ injection H as <- <-. split; [eapply touches_more; [|exact T12]; apply incl_app; [apply incl_appl, incl_refl|apply incl_appr, incl_appl, incl_refl]|]. split; [discriminate|]. intros (_ & X & _). apply G2 in X. discriminate. }
  destruct (match a_saddle a with Some kw => register_rsaddle_joint M kw | None => ret tt end s2) as [s3 r3] eqn:E3. pose proof (proj1 T2) as W2.
  assert (T3 : touches (saddle_names a) s2 s3 /\ (r3 = Ok tt <-> forall kw, a_saddle a = Some kw -> kw = [])).
  { unfold saddle_names. destruct (a_saddle a) as [kw|].
    - destruct (saddle_touch kw s2 s3 r3 W2 E3) as [X Y]. split; [exact X|]. rewrite Y. split; [intros -> kw' [= <-]; reflexivity|auto].
    - injection E3 as <- <-. split; [now apply touches_refl|]. split; [discriminate|reflexivity]. }
  destruct T3 as [T3 G3]. pose proof (touches_app _ _ _ _ _ T12 T3) as T123. rewrite <- app_assoc in T123. destruct r3 as [[]|e3].
  2:{ injection H as <- <-. split; [eapply touches_more; [|exact T123]; intros x; rewrite !in_app_iff; tauto|]. split; [discriminate|]. intros (_ & _ & X & _). apply G3 in X. discriminate. }
  pose proof (proj1 T3) as W3.
  assert (T4 : touches (suntay_names a) s3 s' /\ (r = Ok tt <-> forall k n, a_suntay a = Some (k, n) -> n <> Some "default" /\ exists dj, mk_suntay M k = Ok dj)).
  { unfold suntay_names. destruct (a_suntay a) as [[k n]|].
    - destruct (suntay_touch k n s3 s' r W3 H) as [X Y]. split; [destruct n; exact X|]. rewrite Y. split; [intros X' k' n' [= <- <-]; exact X'|]. intros X'. exact (X' k n eq_refl).
    - injection H as <- <-. split; [now apply touches_refl|]. split; [discriminate|reflexivity]. }
  destruct T4 as [T4 G4]. pose proof (touches_app _ _ _ _ _ T123 T4) as TT. rewrite <- !app_assoc in TT. split; [exact TT|].
  rewrite G4. split; [|tauto]. intros X. split; [now apply G1|]. split; [now apply G2|]. split; [now apply G3|exact X].
Qed.

(** setup() is accepted exactly for arguments that the registered functions know; whatever the arguments and the outcome, it leaves all other
    joint types alone, keeps the registry consistent, and a call that fails changes neither the identity nor the start time. *)
Theorem C92_setup n1 n2 (a : args) (s s' : glob) r : wf_reg (gl_reg s) -> setup M hexhash n1 n2 a s = (s', r) ->
  (r = Ok tt <-> acceptable a) /\ wf_reg (gl_reg s') /\ (forall jt, ~ In jt (names a) -> same_type (gl_reg s) (gl_reg s') jt) /\
  r_changes (gl_reg s') = r_changes (gl_reg s) /\
  (r <> Ok tt -> gl_id s' = gl_id s /\ gl_timing s' = gl_timing s).
Proof.
  intros W H. unfold setup in H. destruct (registrations M a (gl_reg s)) as [rg x] eqn:E.
  destruct (registrations_touch a _ _ _ W E) as ((T1 & T2 & T3) & G). destruct x as [[]|e]; injection H as <- <-; cbn [gl_reg gl_id gl_timing].
  - split; [exact G|]. split; [exact T1|]. split; [exact T3|]. split; [exact T2|]. intros X. now destruct X.
  - split; [exact G|]. split; [exact T1|]. split; [exact T3|]. split; [exact T2|auto].
Qed.
(** With the default arguments it always succeeds, and the three joint types are then as they were when the library was imported. *)
Theorem C92_default n1 n2 k (s : glob) : wf_reg (gl_reg s) -> exists s', setup M hexhash n1 n2 (default_args k) s = (s', Ok tt) /\
  dget String.eqb (r_types (gl_reg s')) "rr" = Some (model (mk_rr M) 1) /\ dget String.eqb (r_types (gl_reg s')) "rr_imp" = Some (model (mk_imp M k) 2) /\
  dget String.eqb (r_types (gl_reg s')) "rsaddle" = Some (model (mk_saddle M) 2) /\
  (forall jt w, In (jt, w) [("rr", 1); ("rr_imp", 2); ("rsaddle", 2)]%nat -> dget String.eqb (r_q (gl_reg s')) jt = Some w /\ dget String.eqb (r_qd (gl_reg s')) jt = Some w) /\
  (exists i, gl_id s' = Some i /\ (forall j, gl_id s = Some j -> i = j)) /\ (exists t, gl_timing s' = Some t /\ (forall j, gl_timing s = Some j -> t = j)).
Proof.
  intros W. destruct (reg_one (gl_reg s) "rr" (mk_rr M) 1 None W ltac:(discriminate) eq_refl) as (s1 & E1 & W1 & C1 & F1 & A1 & A2 & A3).
  destruct (reg_one s1 "rr_imp" (mk_imp M k) 2 (Some 2%nat) W1 ltac:(discriminate) eq_refl) as (s2 & E2 & W2 & C2 & F2 & B1 & B2 & B3).
  destruct (reg_one s2 "rsaddle" (mk_saddle M) 2 None W2 ltac:(discriminate) eq_refl) as (s3 & E3 & W3 & C3 & F3 & D1 & D2 & D3).
  eexists. split.
  - unfold setup, registrations, default_args, register_rr_joint, register_rr_imp_joint, register_rsaddle_joint, sbind. cbn [a_rr a_imp a_saddle a_suntay a_timing a_id no_kwargs ret].
    rewrite E1, E2, E3. cbn [ret]. reflexivity.
  - cbn [gl_reg gl_id gl_timing a_id a_timing].
    destruct (F3 "rr" ltac:(discriminate)) as (X1 & X2 & X3 & _). destruct (F2 "rr" ltac:(discriminate)) as (Y1 & Y2 & Y3 & _). destruct (F3 "rr_imp" ltac:(discriminate)) as (Z1 & Z2 & Z3 & _).
    split; [congruence|]. split; [congruence|]. split; [congruence|]. split; [|split].
    + intros jt w [X|[X|[X|[]]]]; injection X as <- <-; split; congruence.
    + destruct (gl_id s) as [i|]; eexists; (split; [reflexivity|congruence]).
    + destruct (gl_timing s) as [i|]; eexists; (split; [reflexivity|congruence]).
Qed.

(** Over a whole process the registry stays consistent, and the identity of the experiment and the start of the time measurement are
    the last ones given to a setup() that succeeded, or else those made up when the library was imported. *)
Theorem C92_history t1 t2 k (r0 : reg) (calls : list call) : wf_reg r0 ->
  exists s0, import_ring M hexhash t1 t2 k r0 = (s0, Ok tt) /\
  let s := after calls s0 in
  wf_reg (gl_reg s) /\
  gl_id s = Some (last_given (@a_id T KI KS) (hexhash t2) (trace calls s0)) /\ gl_timing s = Some (last_given (@a_timing T KI KS) t1 (trace calls s0)).
Proof.
  intros W0. destruct (C92_default t1 t2 k (mkGlob r0 None None) W0) as (s0 & E & _). exists s0. split; [exact E|]. cbv zeta.
  assert (I : wf_reg (gl_reg s0) /\ gl_id s0 = Some (hexhash t2) /\ gl_timing s0 = Some t1).
  { destruct (C92_setup t1 t2 (default_args k) (mkGlob r0 None None) s0 (Ok tt) W0 E) as (_ & W1 & _). split; [exact W1|]. unfold setup in E. destruct (registrations _ _ _) as [rg [x|e]]; [|discriminate].
    injection E as <-. split; reflexivity. }
  clear E W0. destruct I as (W & Hi & Ht). generalize dependent (hexhash t2). generalize dependent t1. revert s0 W.
  induction calls as [|c calls IH]; intros s0 W t Ht i Hi; [auto|]. cbn [after trace].
  destruct (do_call M hexhash c s0) as [s1 x] eqn:E. cbn [fst].
  destruct c as [n1 n2 a|jt ch|jt jm q qd ow]; cbn [do_call] in E.
  - destruct (C92_setup n1 n2 a s0 s1 x W E) as (_ & W1 & _ & _ & K). cbn [last_given]. destruct x as [[]|e].
    + apply IH; [exact W1| |]; unfold setup in E; destruct (registrations _ _ _) as [rg [y|e]]; try discriminate; injection E as <-; cbn [gl_timing gl_id].
      * rewrite Ht. destruct (a_timing a); reflexivity.
      * rewrite Hi. destruct (a_id a); reflexivity.
    + destruct (K ltac:(discriminate)) as [K1 K2]. apply IH; [exact W1|congruence|congruence].
  - destruct (overwrite_for_joint_type jt ch (gl_reg s0)) as [rg y] eqn:EO. injection E as <- <-. cbn [last_given].
    apply IH; [|exact Ht|exact Hi]. exact (proj1 (proj2 (proj2 (C60_overwrite _ _ _ _ _ W EO)))).
  - destruct (register_new_joint_type jt jm q qd ow (gl_reg s0)) as [rg y] eqn:EO. injection E as <- <-. cbn [last_given].
    apply IH; [|exact Ht|exact Hi]. exact (proj1 (proj2 (proj2 (proj2 (C60_register _ _ _ _ _ _ _ _ W EO))))).
Qed.
End Startup.

(** ** A process *)
Definition demo_makers : @makers unit value unit unit unit :=
  mkMakers (fun c _ => attr c "t_min", tt) (fun _ => (fun c _ => attr c "t_min", tt)) (fun c _ => attr c "t_min", tt) (fun _ => Err EValue).
Definition demo_reg : @reg unit value unit nat :=
  mkReg [("rx", mkJM (Some (fun c _ => attr c "t_min")) 1 tt)] [("rx", 1%nat)] [("rx", 1%nat)] [] [("rx", 0%nat)].
Lemma demo_wf : wf_reg demo_reg.
Proof. intros jt jm E. cbn in E. destruct (String.eqb_spec jt "rx") as [->|]; [|discriminate]. injection E as <-. split; [discriminate|]. split; [now exists 1%nat|reflexivity]. Qed.
Definition demo_start := fst (import_ring demo_makers (fun t : nat => "0x1") 5%nat 6%nat tt demo_reg).
Definition plain (id : option string) : @args nat unit unit := mkArgs (Some []) (Some ([], tt, None)) (Some []) None None id.
Example C92_example : let s := after demo_makers (fun t : nat => "0x1") [CSetup 7%nat 8%nat (plain (Some "run")); CSetup 9%nat 9%nat (mkArgs (Some ["axis"]) None None None None (Some "bad"))] demo_start in
  gl_id s = Some "run" /\ gl_timing s = Some 5%nat.
Proof. split; reflexivity. Qed.

(** Refuted: a joint type keeps the motion that was set for it.  setup() replaces it, but remembers that it was set: the value is
    gone and cannot be set again. *)
Theorem C92_keeps_changes_refuted : exists (s1 s2 s3 : @glob unit value unit nat nat) ch,
  let s0 := demo_start in
  do_call (KI := unit) (KS := unit) demo_makers (fun _ => "0x1") (COverwrite "rr" ch) s0 = (s1, Ok tt) /\
  draw_link (gl_reg s1) default_config "rr" tt = Ok (VNum (7 / 10)) /\
  do_call demo_makers (fun _ => "0x1") (CSetup 7%nat 8%nat (plain None)) s1 = (s2, Ok tt) /\
  draw_link (gl_reg s2) default_config "rr" tt = draw_link (gl_reg s0) default_config "rr" tt /\
  draw_link (gl_reg s2) default_config "rr" tt <> Ok (VNum (7 / 10)) /\
  do_call (KI := unit) (KS := unit) demo_makers (fun _ => "0x1") (COverwrite "rr" ch) s2 = (s3, Err EAssertion).
Proof.
  set (ch := [("t_min", VNum (7 / 10))]).
  set (x1 := do_call (KI := unit) (KS := unit) demo_makers (fun _ => "0x1") (COverwrite "rr" ch) demo_start).
  set (x2 := do_call demo_makers (fun _ => "0x1") (CSetup 7%nat 8%nat (plain None)) (fst x1)).
  set (x3 := do_call (KI := unit) (KS := unit) demo_makers (fun _ => "0x1") (COverwrite "rr" ch) (fst x2)).
  assert (P : forall {X Y} (x : X * Y) y, snd x = y -> x = (fst x, y)) by (intros X Y [a b] y <-; reflexivity).
  exists (fst x1), (fst x2), (fst x3), ch. cbv zeta.
  split; [apply (P _ _ x1); vm_compute; reflexivity|]. split; [vm_compute; reflexivity|]. split; [apply (P _ _ x2); vm_compute; reflexivity|]. split; [vm_compute; reflexivity|].
  split; [|apply (P _ _ x3); vm_compute; reflexivity].
  assert (D : draw_link (gl_reg (fst x2)) default_config "rr" tt = Ok (VNum (5 / 100))) by (vm_compute; reflexivity). rewrite D.
  assert (E : forall x y, @Ok value (VNum x) = Ok (VNum y) -> x = y) by (intros x y X; now injection X).
  intros X. apply E in X. lra.
Qed.
(** Refuted: setup() leaves the built-in joint types alone.  The name given to the imperfect hinge is not checked. *)
Theorem C92_builtin_refuted : exists (s1 : @glob unit value unit nat nat),
  setup demo_makers (fun _ => "0x1") 7%nat 8%nat (mkArgs None (Some ([], tt, Some "rx")) None None None None) demo_start = (s1, Ok tt) /\
  dget String.eqb (r_q (gl_reg demo_start)) "rx" = Some 1%nat /\ dget String.eqb (r_q (gl_reg s1)) "rx" = Some 2%nat.
Proof. eexists. split; [reflexivity|]. split; reflexivity. Qed.
(** Refuted: a setup() that fails has no effect: the joint types before the refused argument are registered. *)
Theorem C92_atomic_refuted : exists (s1 : @glob unit value unit nat nat), let s := mkGlob demo_reg None None in
  setup demo_makers (fun _ => "0x1") 7%nat 8%nat (mkArgs (Some []) (Some (["angle"], tt, None)) None None None None) s = (s1, Err EType) /\
  dget String.eqb (r_types (gl_reg s)) "rr" = None /\ known (gl_reg s1) "rr".
Proof. eexists. cbv zeta. split; [reflexivity|]. split; [reflexivity|]. eexists. reflexivity. Qed.
Print Assumptions C92_setup.
Print Assumptions C92_default.
Print Assumptions C92_history.
Print Assumptions C92_keeps_changes_refuted.
Print Assumptions C92_builtin_refuted.
Print Assumptions C92_atomic_refuted.
