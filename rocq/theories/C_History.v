(** * C07: histories of edits;  C15: the joint registry *)
From Coq Require Import String ZArith Lia Bool List.
From Verif Require Import Prelude M_Sys S_Sys S_Morph M_Compose M_Morph S_Morph2 P_Sys M_History P_History M_Registry
  X_Toy C_Morph.
Import ListNotations.
Local Open Scope Z_scope.

Section Claims.
Context {K T P J R G O : Type}.
Variable W : widths.
Notation Lk := (mlink T P J R).
Notation Sys := (System K Lk (T * G) O).
Variable ops : parse_ops K Lk (T * G).
Variable A : talg T P.
Variable jt : string -> J -> T.
Hypothesis laws : ops_laws ops.
Hypothesis llaws : link_laws ops A.
Variable pad : list Lk -> Lk -> Lk.
Variable registered has_init : string -> bool.
Variable reload : Sys -> result Sys.
(** change_joint_type re-reads the system from XML for joints with init_joint_params; the reader ends in
    System.parse (from_xml.py 130-259). *)
Hypothesis reload_parsed : forall s s', parsed W ops s -> reload s = Ok s' -> parsed W ops s'.
Notation run := (run_edit W ops A jt pad registered has_init reload).

(** [history s es s']: the edits [es] are applied one after the other, all succeed, injected systems were
    themselves parsed, and no renaming picks a name which another link has. *)
Inductive history : Sys -> list (edit Sys K) -> Sys -> Prop :=
| hist_nil s : history s [] s
| hist_cons s e s1 es s' :
    run s e = Ok s1 ->
    (forall sub b, e = EInject sub b -> parsed W ops sub) ->
    (forall o n, e = ERename o n -> In n (link_names s) -> n = o) ->
    history s1 es s' ->
    history s (e :: es) s'.

(** C07, the part that holds: renamings must not pick a name in use. *)
Theorem C07_edits_keep_wf_partial s es s' : parsed W ops s -> history s es s' -> parsed W ops s' /\ wf W s'.
Proof.
  intros PD H. assert (P' : parsed W ops s').
  { induction H as [|s e s1 es s' E HI HR H IH]; auto. apply IH.
    apply (run_edit_parsed W ops A jt laws llaws pad registered has_init reload reload_parsed s e s1 PD HI HR E). }
  split; auto. apply P'.
Qed.

(** The same for a program run by [run_edits], when it contains no renaming and all injected systems are parsed. *)
Theorem C07_run_keeps_wf s es s' : parsed W ops s ->
  (forall sub b, In (EInject sub b) es -> parsed W ops sub) -> (forall o n, ~ In (ERename o n) es) ->
  run_edits W ops A jt pad registered has_init reload s es = Ok s' -> parsed W ops s'.
Proof.
  intros PD HI HR H. apply (C07_edits_keep_wf_partial s es s' PD).
  clear PD. revert s H. induction es as [|e es IH]; intros s H; cbn in H.
  - injection H as <-. constructor.
  - apply bind_Ok in H. destruct H as (s1 & H1 & H). apply hist_cons with (s1 := s1); auto.
    + intros sub b ->. apply (HI sub b). now left.
    + intros o n ->. exfalso. apply (HR o n). now left.
    + apply IH; auto.
      * intros sub b I. apply (HI sub b). now right.
      * intros o n I. apply (HR o n). now right.
Qed.
End Claims.
Print Assumptions C07_edits_keep_wf_partial.
Print Assumptions C07_run_keeps_wf.

Definition line_pad (_ : list (mlink Z Z unit nat)) (l : mlink Z Z unit nat) := l.
Definition line_sub : System nat (mlink Z Z unit nat) (Z * nat) unit :=
  add_prefix_suffix line5 "sub_" "".
Notation line_run := (run_edits builtin_widths line_ops line zero_joint line_pad
  (fun _ => true) (fun _ => false) (fun s => Ok s)).

Lemma line_sub_parsed : parsed builtin_widths line_ops line_sub.
Proof. parsed_by_compute line_laws. Qed.

(** A history using every kind of edit. *)
Definition line_edits : list (edit (System nat (mlink Z Z unit nat) (Z * nat) unit) nat) :=
  [EInject line_sub (Some "a"%string); EDelete ["sub_a"%string] true; EFreeze ["b"%string];
   EUnfreeze "c" "spherical"; EMorph None (Some (inr "b"%string)); EChange "a" "px" None None None None;
   EPrefixSuffix "pre_" "_suf"; EDelete ["nosuch"%string; "pre_d_suf"%string] false].
Example C07_example :
  exists s', line_run line5 line_edits = Ok s' /\ num_links s' = 6%nat /\
    parsed builtin_widths line_ops s'.
Proof.
  destruct (line_run line5 line_edits) as [s'|] eqn:E; [|vm_compute in E; discriminate].
  exists s'. split; auto. split.
  - revert E. vm_compute. intros E. injection E as <-. reflexivity.
  - eapply C07_run_keeps_wf; [apply line_laws|apply line_link_laws| |apply line5_parsed| | |exact E].
    + intros a b Pa Eb. congruence.
    + intros sub b [H|H]; [injection H as <- _; apply line_sub_parsed|].
      repeat (destruct H as [H|H]; [discriminate|]). destruct H.
    + intros o n H. repeat (destruct H as [H|H]; [discriminate|]). destruct H.
Qed.

(** C07 as stated fails: change_link_name accepts a name which is already in use (base.py 481-485). *)
Theorem C07_edits_keep_wf_refuted :
  exists s', parsed builtin_widths line_ops line5 /\
    line_run line5 [ERename "b" "root"] = Ok s' /\ ~ NoDup (link_names s').
Proof.
  eexists. split; [apply line5_parsed|]. split; [vm_compute; reflexivity|].
  intros N. inversion N as [|? ? X _]. apply X. simpl. auto.
Qed.

(** ** C15 *)

(** Every registered type has a model and both widths, no width exists without a model, and the model
    has one motion column per velocity coordinate. *)
Definition consistent {X} (r : registry X) : Prop :=
  forall t,
    match dget String.eqb (r_models r) t with
    | Some m => exists q, dget String.eqb (r_q r) t = Some q /\ dget String.eqb (r_qd r) t = Some (jm_motion m)
    | None => dget String.eqb (r_q r) t = None /\ dget String.eqb (r_qd r) t = None
    end.

(** Two registries answer every lookup alike. *)
Definition same_registry {X} (r r' : registry X) : Prop :=
  forall t, dget String.eqb (r_models r') t = dget String.eqb (r_models r) t /\
    dget String.eqb (r_q r') t = dget String.eqb (r_q r) t /\
    dget String.eqb (r_qd r') t = dget String.eqb (r_qd r) t.

Lemma register_cases {X} (r : registry X) t m q qd over : consistent r ->
  let d := match qd with Some d => d | None => q end in
  let '(r', out) := register_new_joint_type r t m q qd over in
  let ex := dmem String.eqb (r_models r) t in
  (t = "default"%string /\ r' = r /\ out = Err EAssertion) \/
  (t <> "default"%string /\ ex = true /\ over = false /\ r' = r /\ out = Err EAssertion) \/
  (t <> "default"%string /\ (ex = false \/ over = true) /\ jm_motion m = d /\ out = Ok tt /\
     (forall u, u <> t -> dget String.eqb (r_models r') u = dget String.eqb (r_models r) u /\
        dget String.eqb (r_q r') u = dget String.eqb (r_q r) u /\ dget String.eqb (r_qd r') u = dget String.eqb (r_qd r) u) /\
     dget String.eqb (r_models r') t = Some m /\ dget String.eqb (r_q r') t = Some q /\ dget String.eqb (r_qd r') t = Some d) \/
  (t <> "default"%string /\ ex = false /\ jm_motion m <> d /\ r' = r /\ out = Err EAssertion) \/
  (t <> "default"%string /\ ex = true /\ over = true /\ jm_motion m <> d /\ out = Err EAssertion /\
     (forall u, u <> t -> dget String.eqb (r_models r') u = dget String.eqb (r_models r) u /\
        dget String.eqb (r_q r') u = dget String.eqb (r_q r) u /\ dget String.eqb (r_qd r') u = dget String.eqb (r_qd r) u) /\
     dget String.eqb (r_models r') t = None /\ dget String.eqb (r_q r') t = None /\ dget String.eqb (r_qd r') t = None).
Proof.
  intros C. cbv zeta. unfold register_new_joint_type. destruct (String.eqb_spec t "default") as [->|N]; [auto|].
  pose proof (C t) as Ct. unfold dpop, dmem.
  destruct (dget String.eqb (r_models r) t) as [m0|] eqn:E.
  - destruct Ct as (q0 & Eq & Ed). rewrite Eq, Ed. destruct over; cbn [andb].
    + destruct (Nat.eqb_spec (jm_motion m) match qd with Some d => d | None => q end) as [D|D]; cbn.
      * right; right; left. repeat (split; auto); intros; rewrite ?(dget_dset_same _ String.eqb_eq); auto;
        rewrite (dget_dset_other _ String.eqb_eq) by auto; apply (dget_ddel_other _ String.eqb_eq); auto.
      * right; right; right; right. repeat (split; auto); intros; try apply dget_ddel_same;
        apply (dget_ddel_other _ String.eqb_eq); auto.
    + right; left. auto.
  - cbn [andb].
    destruct (Nat.eqb_spec (jm_motion m) match qd with Some d => d | None => q end) as [D|D]; cbn.
    + right; right; left. repeat (split; auto); intros; rewrite ?(dget_dset_same _ String.eqb_eq); auto;
        apply (dget_dset_other _ String.eqb_eq); auto.
    + right; right; right; left. auto.
Qed.

(** C15.  Consistency survives every sequence of calls, whether they succeed or raise. *)
Theorem C15_registry_consistent {X} (r : registry X) cs : consistent r -> consistent (call_all r cs).
Proof.
  revert r. induction cs as [|c cs IH]; intros r C; simpl; auto. apply IH.
  unfold call_reg. pose proof (register_cases r (rc_type c) (rc_model c) (rc_q c) (rc_qd c) (rc_over c) C) as H.
  destruct (register_new_joint_type _ _ _ _ _ _) as [r' out]. cbv zeta in H. cbn [fst].
  destruct H as [(_ & -> & _)|[(_ & _ & _ & -> & _)|[H|[(_ & _ & _ & -> & _)|H]]]]; auto; intros u.
  - destruct H as (_ & _ & D & _ & H & E1 & E2 & E3). destruct (string_dec u (rc_type c)) as [->|N].
    + rewrite E1, E2, E3, D. eauto.
    + destruct (H u N) as (-> & -> & ->). apply C.
  - destruct H as (_ & _ & _ & _ & _ & H & E1 & E2 & E3). destruct (string_dec u (rc_type c)) as [->|N].
    + rewrite E1, E2, E3. auto.
    + destruct (H u N) as (-> & -> & ->). apply C.
Qed.

(** The package starts consistent. *)
Theorem C15_builtin_consistent {X} (rest : string -> X) : consistent (builtin_registry rest).
Proof.
  intros t. unfold builtin_registry, builtin_models, builtin_Q, builtin_QD; cbn [r_models r_q r_qd map fst snd dget].
  repeat match goal with |- context [String.eqb t ?x] =>
    destruct (String.eqb_spec t x) as [->|?]; [cbn; eauto|] end. auto.
Qed.

(** C15.  A successful call records exactly the given model and widths and touches no other type; it
    succeeds exactly for a new name (or with overwrite) and a matching number of motion columns. *)
Theorem C15_success {X} (r : registry X) t m q qd over : consistent r ->
  let d := match qd with Some d => d | None => q end in
  let '(r', out) := register_new_joint_type r t m q qd over in
  (out = Ok tt <-> t <> "default"%string /\ (get_joint_model r t = Err EAssertion \/ over = true) /\ jm_motion m = d) /\
  (out = Ok tt -> get_joint_model r' t = Ok m /\ qW (reg_widths r') t = Some q /\ dW (reg_widths r') t = Some d /\
     forall u, u <> t -> get_joint_model r' u = get_joint_model r u /\
       qW (reg_widths r') u = qW (reg_widths r) u /\ dW (reg_widths r') u = dW (reg_widths r) u).
Proof.
  intros C. cbv zeta. pose proof (register_cases r t m q qd over C) as H.
  destruct (register_new_joint_type r t m q qd over) as [r' out]. cbv zeta in H.
  assert (G : get_joint_model r t = Err EAssertion <-> dmem String.eqb (r_models r) t = false).
  { unfold get_joint_model, dgetE, dmem. destruct (dget String.eqb (r_models r) t); simpl; split; congruence. }
  destruct H as [(? & ? & ->)|[(? & ? & ? & ? & ->)|[H|[(? & ? & ? & ? & ->)|(? & ? & ? & ? & -> & ?)]]]].
  - split; [|discriminate]. split; [discriminate|]. tauto.
  - split; [|discriminate]. split; [discriminate|]. rewrite G. intros (_ & [|] & _); congruence.
  - destruct H as (N & O1 & D & -> & H & E1 & E2 & E3). split.
    + split; [|auto]. intros _. rewrite G. auto.
    + intros _. unfold get_joint_model, dgetE, dmem. rewrite E1. cbn. repeat (split; auto).
      * now destruct (H u H0) as (-> & _).
      * now destruct (H u H0) as (_ & -> & _).
      * now destruct (H u H0) as (_ & _ & ->).
  - split; [|discriminate]. split; [discriminate|]. tauto.
  - split; [|discriminate]. split; [discriminate|]. tauto.
Qed.

(** C15, the part of the second half that holds: a failing call without overwrite, or for a new name,
    leaves the registry unchanged. *)
Theorem C15_failure_leaves_unchanged_partial {X} (r : registry X) t m q qd over e : consistent r ->
  (over = false \/ get_joint_model r t = Err EAssertion) ->
  snd (register_new_joint_type r t m q qd over) = Err e ->
  fst (register_new_joint_type r t m q qd over) = r.
Proof.
  intros C O1 F. pose proof (register_cases r t m q qd over C) as H.
  destruct (register_new_joint_type r t m q qd over) as [r' out]. cbv zeta in H. cbn [fst snd] in *. subst out.
  destruct H as [(? & ? & _)|[(? & ? & ? & ? & _)|[H|[(? & ? & ? & ? & _)|(? & EX & ? & _)]]]]; auto.
  - destruct H as (_ & _ & _ & H & _). discriminate.
  - exfalso. destruct O1 as [O1|O1]; [congruence|]. unfold get_joint_model in O1. rewrite EX in O1. cbn in O1.
    unfold dmem in EX. unfold dgetE in O1. destruct (dget String.eqb (r_models r) t); congruence.
Qed.

(** C15 as stated fails: overwriting with a model whose number of motion columns is wrong raises, but the
    old joint type is gone (jcalc.py 1070-1084), so existing systems using it can no longer be parsed. *)
Theorem C15_failure_leaves_unchanged_refuted {X} (rest : string -> X) (x : X) :
  let r := builtin_registry rest in
  let '(r', out) := register_new_joint_type r "rx" (mkJM 2 x) 1 None true in
  out = Err EAssertion /\ is_ok (get_joint_model r "rx") = true /\ get_joint_model r' "rx" = Err EAssertion /\
  ~ same_registry r r' /\
  parse builtin_widths line_ops line5 = Ok line5 /\ parse (reg_widths r') line_ops line5 = Err EKey.
Proof.
  cbn. repeat (split; [reflexivity|]). split; [|split; vm_compute; reflexivity].
  intros H. destruct (H "rx"%string) as (_ & E & _). cbn in E. discriminate.
Qed.

(** A sequence with successes and failures from the start-up registry. *)
Example C15_example :
  let r := call_all (builtin_registry (fun _ => tt))
    [mkCall "rr" (mkJM 1 tt) 1 None true; mkCall "rr" (mkJM 1 tt) 1 None false; mkCall "default" (mkJM 0 tt) 0 None false;
     mkCall "ball2" (mkJM 3 tt) 4 (Some 3%nat) false; mkCall "rr" (mkJM 2 tt) 2 None true] in
  get_joint_model r "rr" = Ok (mkJM 2 tt) /\ qW (reg_widths r) "ball2" = Some 4%nat /\
  dW (reg_widths r) "ball2" = Some 3%nat /\ get_joint_model r "default" = Err EAssertion.
Proof. vm_compute. auto. Qed.

(** _limit_scope_of_joint_params: a joint never sees the parameters of another type. *)
Theorem C15_params_scope {V} (t : string) (jp jp' : list (string * V)) :
  dget String.eqb jp t = dget String.eqb jp' t -> dget String.eqb jp "default"%string = dget String.eqb jp' "default"%string ->
  limit_scope_of_joint_params t jp = limit_scope_of_joint_params t jp'.
Proof. intros E1 E2. unfold limit_scope_of_joint_params, dgetE. rewrite E1, E2. reflexivity. Qed.
Print Assumptions C07_edits_keep_wf_refuted.
Print Assumptions C15_registry_consistent.
Print Assumptions C15_success.
Print Assumptions C15_failure_leaves_unchanged_refuted.
