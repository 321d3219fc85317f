(** * Options of generators (C70). *)
From Coq Require Import Reals Lra ZArith String Ascii Lia Bool List.
From Verif Require Import Prelude M_Sys M_Compose M_Math M_Geom M_Xml M_Pd S_Sys P_Scan P_Sys P_Run M_Artifact M_Build S_Build P_Build C_Load.
Import ListNotations.
Local Open Scope string_scope.
Local Open Scope list_scope.

Section Build.
Context {J V C X : Type}.
Variable W : widths.
Variable print : R -> string.
Variable print_int : Z -> string.
Variable float_of : string -> option R.
Variable jinit : list string -> result (list J).
Variable registered has_init : string -> bool.
Variable reload : xsys J -> result (xsys J).
Variable jpad : list J -> J -> J.
Variable jzero : J -> J.
Variable names : list string -> V.
Variable is_feasible : C -> result bool.
Variable art_of : list (string * V) -> result art_opts.
Notation inject := (inject_subsystems W print print_int float_of jinit registered has_init reload jpad jzero).
Notation obj := (@obj V C).
Notation options := (@options J X).
Notation reads := (@reads J V C X).
Notation closure := (@closure J X).
Notation build := (build W print print_int float_of jinit registered has_init reload jpad jzero names art_of).
Notation build_body := (build_body W print print_int float_of jinit registered has_init reload jpad jzero names art_of).
Notation attach_imus := (attach_imus W print print_int float_of jinit registered has_init reload jpad jzero names art_of).
Notation build_all := (build_all W print print_int float_of jinit registered has_init reload jpad jzero names art_of).
Notation rcmg := (rcmg W print print_int float_of jinit registered has_init reload jpad jzero names is_feasible art_of).
Notation run_program := (run_program W print print_int float_of jinit registered has_init reload jpad jzero names is_feasible art_of).
Notation step := (step W print print_int float_of jinit registered has_init reload jpad jzero names is_feasible art_of).
Implicit Type h : list obj.

(** The system with soft attachments, and the system without IMUs: what the two functions return (see C47 and C08). *)
Definition soft (kw : list (string * V)) (s s' : xsys J) : Prop := exists a, art_of kw = Ok a /\ inject a s = Ok s'.
Definition segments (ml s' : xsys J) : Prop :=
  (findall_imus ml = [] /\ s' = ml) \/ (findall_imus ml <> [] /\ exists att, make_sys_noimu W xml_ops ml None = Ok (s', att)).
Definition sound (s : xsys J) : Prop := wf W s.
(** Soft attachments keep systems well formed: they are loaded from a document. *)
Lemma soft_wf kw s s' : soft kw s s' -> wf W s'.
Proof.
  intros (a & _ & H). unfold inject_subsystems in H. do 5 (apply bind_Ok in H; destruct H as (? & _ & H)). apply C16_loaded in H. apply (pd_wf _ _ _ H).
Qed.

Lemma segments_det ml s1 s2 : segments ml s1 -> segments ml s2 -> s1 = s2.
Proof. intros [[A ->]|[A [a1 E1]]] [[B ->]|[B [a2 E2]]]; try contradiction; congruence. Qed.

Lemma noimu_spec (o : options) ml : match noimu_of W o ml with
  | Ok n => if o_axes o || o_relpose o || o_incl o then exists s', n = Some s' /\ segments ml s' else n = None
  | Err _ => o_axes o || o_relpose o || o_incl o = true /\ forall s', ~ segments ml s' end.
Proof.
  unfold noimu_of. destruct (o_axes o || o_relpose o || o_incl o); [|reflexivity]. destruct (Nat.ltb_spec 0 (length (findall_imus ml))) as [L|L].
  - assert (NE : findall_imus ml <> []) by (intros E; rewrite E in L; cbn in L; lia). destruct (make_sys_noimu W xml_ops ml None) as [[s' att]|e] eqn:E; cbn [bind fst].
    + exists s'. split; [reflexivity|]. right. split; [exact NE|eauto].
    + split; [reflexivity|]. intros s' [[Q _]|[_ [att Q]]]; congruence.
  - exists ml. split; [reflexivity|]. left. split; [|reflexivity]. apply length_zero_iff_nil. lia.
Qed.

Lemma has_key_dmem k (d : list (string * V)) : dmem String.eqb d k = true <-> has_key k d.
Proof.
  unfold dmem, has_key. split.
  - induction d as [|[k' v] d IH]; cbn [dget]; [discriminate|]. destruct (String.eqb_spec k k') as [->|N]; [intros _; exists v; now left|]. intros H. destruct (IH H) as [w Hw]. exists w. now right.
  - intros [v Hv]. induction d as [|[k' v'] d IH]; [destruct Hv|]. cbn [dget]. destruct (String.eqb_spec k k') as [->|N]; [reflexivity|]. destruct Hv as [E|Hv]; [congruence|auto].
Qed.
Lemma dset_new k (v : V) d : dmem String.eqb d k = false -> dset String.eqb d k v = d ++ [(k, v)].
Proof.
  unfold dmem. induction d as [|[k' v'] d IH]; cbn [dget dset app]; [reflexivity|]. destruct (String.eqb k k'); [discriminate|]. intros H. now rewrite IH.
Qed.

(** ** Nothing handed in is changed *)
Lemma attach_keeps h0 h (o : options) s h' r : keeps h0 h -> (forall d, get_dict h (o_dyn_kw o) = Ok d -> (length h0 <= o_dyn_kw o)%nat) ->
  attach_imus h o s = (h', r) -> keeps h0 h' /\ length h' = length h.
Proof.
  intros K D. unfold attach_imus. destruct (o_artifacts o); [|intros E; injection E as <- _; auto]. destruct (negb (o_dynsim o)); [intros E; injection E as <- _; auto|].
  destruct (do kw <- get_dict h (o_art_kw o); do a <- art_of kw; inject a s) as [s'|e]; [|intros E; injection E as <- _; auto].
  destruct (get_dict h (o_dyn_kw o)) as [d|e] eqn:G; [|intros E; injection E as <- _; auto]. destruct (dmem String.eqb d "unactuated_subsystems"); [intros E; injection E as <- _; auto|].
  cbv zeta. intros E. injection E as <- _. split; [apply keeps_put; eauto|apply put_obj_length].
Qed.
Lemma build_keeps h (o : options) s ml h' r : build h o s ml = (h', r) -> keeps h h'.
Proof.
  unfold build. destruct (copy_dicts h o) as [h1 o1] eqn:CP. destruct (copy_dicts_keeps h o h1 o1 CP) as [K D]. unfold build_body. destruct (noimu_of W o1 ml) as [n|e]; [|intros E; injection E as <- _; exact K].
  destruct (attach_imus h1 o1 s) as [h2 r2] eqn:AT. intros E. injection E as <- _. exact (proj1 (attach_keeps h h1 o1 s h2 r2 K D AT)).
Qed.
Lemma build_all_keeps (o : options) ml : forall ss h h' r, build_all h o ss ml = (h', r) -> keeps h h'.
Proof.
  induction ss as [|s ss IH]; intros h h' r H; cbn [build_all] in H; [injection H as <- _; apply keeps_refl|]. destruct (build h o s ml) as [h1 [c|e]] eqn:B; apply build_keeps in B; [|injection H as <- _; exact B].
  destruct (build_all h1 o ss ml) as [h2 cs] eqn:BA. injection H as <- _. eapply keeps_trans; [exact B|eapply IH; exact BA].
Qed.

(** Whether building succeeds or raises, every object that existed before is as it was. *)
Theorem C70_untouched h (o : options) ss h' r : rcmg h o ss = (h', r) -> forall a, (a < length h)%nat -> nth_error h' a = nth_error h a.
Proof.
  unfold rcmg. destruct (do ml <- _; _) as [ml|e]; intros H.
  - apply build_all_keeps in H. apply H.
  - injection H as <- _. reflexivity.
Qed.

(** ** What one generator works with *)
Notation as_given := (@as_given J V C X names soft segments).
Notation acceptable := (@acceptable J V C X W soft segments).

Lemma get_dict_some h a d : nth_error h a = Some (ODict d) -> get_dict h a = Ok d.
Proof. intros E. unfold get_dict. now rewrite E. Qed.

Lemma body_spec h (o : options) s ml dart ddyn h' r : sound s -> nth_error h (o_art_kw o) = Some (ODict dart) -> nth_error h (o_dyn_kw o) = Some (ODict ddyn) -> o_art_kw o <> o_dyn_kw o ->
  build_body h o s ml = (h', r) ->
  match r with
  | Ok c => acceptable h o s ml /\ c_opts c = o /\
      (if o_artifacts o then soft dart s (c_sys c) else c_sys c = s) /\
      (if o_axes o || o_relpose o || o_incl o then exists s', c_noimu c = Some s' /\ segments ml s' else c_noimu c = None) /\
      (o_artifacts o = true -> has_key "prob_rigid" dart -> o_random_artifacts o = true) /\
      h' = if o_artifacts o then put_obj h (o_dyn_kw o) (ODict (ddyn ++ [("unactuated_subsystems", names (map (String "_") (filter is_imu_name (link_names s))))])) else h
  | Err _ => ~ acceptable h o s ml
  end.
Proof.
  intros WF EA ED NE. pose proof (fun kw s' => soft_wf kw s s') as SW. unfold build_body. pose proof (noimu_spec o ml) as NS. destruct (noimu_of W o ml) as [n|e].
  2:{ intros E. injection E as _ <-. destruct NS as [Q NS]. intros [A _]. destruct (A Q) as [s' Hs]. exact (NS _ Hs). }
  assert (SEG : o_axes o || o_relpose o || o_incl o = true -> exists s', segments ml s').
  { intros Q. rewrite Q in NS. destruct NS as (s' & _ & Hs). eauto. }
  unfold attach_imus. destruct (o_artifacts o) eqn:AR.
  2:{ intros E. injection E as <- <-. cbn [bind]. destruct (o_dynsim o) eqn:DS.
      - destruct (assert_test_system W s) as [[]|e] eqn:T; cbn [bind].
        + apply (simulable_iff W s WF) in T. split; [|cbn [c_opts c_sys c_noimu]; split; [reflexivity|]; split; [reflexivity|]; split; [exact NS|]; split; [discriminate|reflexivity]].
          split; [exact SEG|]. split; [auto|]. rewrite AR. discriminate.
        + intros (_ & B & _). specialize (B AR DS). apply (simulable_iff W s WF) in B. congruence.
      - cbn [bind]. split; [|cbn [c_opts c_sys c_noimu]; split; [reflexivity|]; split; [reflexivity|]; split; [exact NS|]; split; [discriminate|reflexivity]].
        split; [exact SEG|]. split; [rewrite DS; discriminate|]. rewrite AR. discriminate. }
  destruct (o_dynsim o) eqn:DS; cbn [negb].
  2:{ intros E. injection E as <- <-. cbn [bind]. intros (_ & _ & B). destruct (B AR) as [Q _]. congruence. }
  rewrite (get_dict_some _ _ _ EA). cbn [bind]. destruct (art_of dart) as [a|e] eqn:AO; cbn [bind].
  2:{ intros E. injection E as <- <-. cbn [bind]. intros (_ & _ & B). destruct (B AR) as (_ & art & dyn & s' & HA & _ & (a & Q & _) & _). unfold holds in HA. rewrite EA in HA. injection HA as <-. congruence. }
  destruct (inject a s) as [s'|e] eqn:IJ.
  2:{ intros E. injection E as <- <-. cbn [bind]. intros (_ & _ & B). destruct (B AR) as (_ & art & dyn & s' & HA & _ & (a' & Q & Q') & _). unfold holds in HA. rewrite EA in HA. injection HA as <-. congruence. }
  assert (SO : soft dart s s') by (exists a; auto). rewrite (get_dict_some _ _ _ ED). destruct (dmem String.eqb ddyn "unactuated_subsystems") eqn:DM.
  { intros E. injection E as <- <-. cbn [bind]. intros (_ & _ & B). destruct (B AR) as (_ & art & dyn & s2 & _ & HD & _ & _ & NK & _). unfold holds in HD. rewrite ED in HD. injection HD as <-. apply NK. now apply has_key_dmem. }
  assert (NK : ~ has_key "unactuated_subsystems" ddyn) by (intros Q; apply has_key_dmem in Q; congruence).
  cbv zeta. rewrite (dset_new _ _ _ DM). assert (EA' : get_dict (put_obj h (o_dyn_kw o) (ODict (ddyn ++ [("unactuated_subsystems", names (unactuated_subsystem s))]))) (o_art_kw o) = Ok dart).
  { unfold get_dict. rewrite put_obj_other by congruence. now rewrite EA. }
  rewrite EA'. cbn [bind]. intros E. injection E as <- <-.
  assert (PR : (if dmem String.eqb dart "prob_rigid" then assert_ (o_random_artifacts o) else Ok tt) = Ok tt <-> (has_key "prob_rigid" dart -> o_random_artifacts o = true)).
  { destruct (dmem String.eqb dart "prob_rigid") eqn:DP.
    - apply has_key_dmem in DP. unfold assert_. destruct (o_random_artifacts o); split; intros Q; auto; try discriminate. specialize (Q DP). discriminate.
    - split; [|reflexivity]. intros _ Q. apply has_key_dmem in Q. congruence. }
  destruct (if dmem String.eqb dart "prob_rigid" then assert_ (o_random_artifacts o) else Ok tt) as [[]|e]; cbn [bind].
  2:{ intros (_ & _ & B). destruct (B AR) as (_ & art & dyn & s2 & HA & _ & _ & _ & _ & Q). unfold holds in HA. rewrite EA in HA. injection HA as <-. apply PR in Q. discriminate. }
  pose proof (proj1 PR eq_refl) as PK. destruct (assert_test_system W s') as [[]|e] eqn:T; cbn [bind].
  - apply (simulable_iff W s' (SW _ _ SO)) in T. split; [|cbn [c_opts c_sys c_noimu]; split; [reflexivity|]; split; [exact SO|]; split; [exact NS|]; split; [auto|reflexivity]].
    split; [exact SEG|]. split; [rewrite AR; discriminate|]. intros _. split; [exact DS|]. exists dart, ddyn, s'. auto 10.
  - intros (_ & _ & B). destruct (B AR) as (_ & art & dyn & s2 & HA & _ & (a2 & Q1 & Q2) & SI & _). unfold holds in HA. rewrite EA in HA. injection HA as <-. assert (s2 = s') by congruence. subst s2.
    apply (simulable_iff W s' (SW _ _ SO)) in SI. congruence.
Qed.

Lemma build_spec h (o : options) s ml h' r : typed h o -> sound s -> build h o s ml = (h', r) ->
  length h' = (length h + 7)%nat /\
  match r with
  | Ok c => acceptable h o s ml /\
      forall g cs, (forall a, (length h <= a < length h + 7)%nat -> nth_error g a = nth_error h' a) -> nth_error g (o_config o) = Some (OConfigs cs) ->
        exists rd, call_reads g c = Ok rd /\ as_given h o s ml rd /\ r_configs rd = cs
  | Err _ => ~ acceptable h o s ml
  end.
Proof.
  intros TY SS. unfold build. destruct (copy_dicts_spec h o TY) as (h1 & o1 & -> & CP). destruct TY as [[cs0 EC] F].
  destruct CP as [K CG FL RS AD LN CN]. injection FL as FL1 FL2 FL3 FL4 FL5 FL6.
  unfold addresses in F, AD, CN. cbn [seq map] in AD. injection AD as A1 A2 A3 A4 A5 A6 A7.
  inversion F as [|? ? [d1 E1] F1]; subst. inversion F1 as [|? ? [d2 E2] F2]; subst. inversion F2 as [|? ? [d3 E3] F3]; subst.
  inversion F3 as [|? ? [d4 E4] F4]; subst. inversion F4 as [|? ? [d5 E5] F5]; subst. inversion F5 as [|? ? [d6 E6] F6]; subst. inversion F6 as [|? ? [d7 E7] _]; subst. clear F F1 F2 F3 F4 F5 F6.
  inversion CN as [|? ? ? ? N1 C1]; subst. inversion C1 as [|? ? ? ? N2 C2]; subst. inversion C2 as [|? ? ? ? N3 C3]; subst. inversion C3 as [|? ? ? ? N4 C4]; subst. inversion C4 as [|? ? ? ? N5 C5]; subst.
  inversion C5 as [|? ? ? ? N6 C6]; subst. inversion C6 as [|? ? ? ? N7 _]; subst. clear CN C1 C2 C3 C4 C5 C6. rewrite E1 in N1. rewrite E2 in N2. rewrite E3 in N3. rewrite E4 in N4. rewrite E5 in N5. rewrite E6 in N6. rewrite E7 in N7.
  intros B. destruct (build_body h1 o1 s ml) as [h2 r2] eqn:BB. injection B as <- <-.
  pose proof (body_spec h1 o1 s ml d6 d7 h2 r2 SS N6 N7 ltac:(lia) BB) as BS.
  assert (AC : acceptable h1 o1 s ml <-> acceptable h o s ml).
  { unfold acceptable, S_Build.acceptable, holds. rewrite FL1, FL2, FL3, FL4, FL5, FL6, N6, N7, E6, E7. reflexivity. }
  assert (LH : length h2 = length h1).
  { unfold build_body in BB. destruct (noimu_of W o1 ml); [|injection BB as <- _; reflexivity]. destruct (attach_imus h1 o1 s) as [h3 r3] eqn:AT. injection BB as <- _.
    apply (attach_keeps [] h1 o1 s h3 r3); [split; [cbn; lia|intros b Hb; cbn in Hb; lia]|intros; cbn; lia|exact AT]. }
  split; [lia|]. destruct r2 as [c|e]; [|rewrite <- AC; exact BS]. destruct BS as (A & OC & SY & NI & PR & HH). split; [now apply AC|]. intros g cs G GC. rewrite FL4 in *. rewrite FL1, FL2, FL3 in NI.
  assert (O7 : nth_error g (o_dyn_kw o1) = Some (ODict (if o_artifacts o then d7 ++ [("unactuated_subsystems", names (map (String "_") (filter is_imu_name (link_names s))))] else d7))).
  { rewrite G by lia. rewrite HH. destruct (o_artifacts o); [|exact N7]. apply put_obj_same. apply nth_error_Some. congruence. }
  assert (OT : forall a d, (length h <= a < length h + 7)%nat -> a <> o_dyn_kw o1 -> nth_error h1 a = Some (ODict d) -> get_dict g a = Ok d).
  { intros a d La Na E. unfold get_dict. rewrite G by lia. rewrite HH. destruct (o_artifacts o); [rewrite put_obj_other by congruence|]; now rewrite E. }
  unfold call_reads. cbv zeta. rewrite OC, CG. unfold get_configs. rewrite GC. cbn [bind].
  rewrite (OT _ d1) by (auto; lia). cbn [bind]. rewrite (OT _ d2) by (auto; lia). cbn [bind]. rewrite (OT _ d3) by (auto; lia). cbn [bind]. rewrite (OT _ d4) by (auto; lia). cbn [bind].
  rewrite (OT _ d5) by (auto; lia). cbn [bind]. rewrite (OT _ d6) by (auto; lia). cbn [bind]. unfold get_dict. rewrite O7. cbn [bind]. eexists. split; [reflexivity|]. split; [|reflexivity].
  constructor; cbn [r_imu r_axes r_incl r_full r_hz r_art r_dyn r_sys r_noimu r_opts r_rest]; unfold holds; auto.
  - exists d7. auto.
  - rewrite FL1, FL2, FL3, FL4, FL5, FL6. reflexivity.
Qed.

Lemma typed_keeps h h' (o : options) : keeps h h' -> typed h o -> typed h' o.
Proof.
  intros K [[cs E] F]. split; [exists cs; eapply keeps_some; eauto|]. eapply Forall_impl; [|exact F]. intros a [d Hd]. exists d. eapply keeps_some; eauto.
Qed.
Lemma holds_keeps h h' (o : options) a d : keeps h h' -> (exists d, nth_error h a = Some (ODict d)) -> holds h' a d -> holds h a d.
Proof. intros [L K] [e E] H. unfold holds in *. rewrite <- K; [exact H|]. apply nth_error_Some. congruence. Qed.
Lemma acceptable_keeps h h' (o : options) s ml : keeps h h' -> typed h o -> acceptable h' o s ml <-> acceptable h o s ml.
Proof.
  intros K [_ F]. unfold addresses in F. rewrite Forall_forall in F. assert (EA : nth_error h' (o_art_kw o) = nth_error h (o_art_kw o)).
  { destruct (F (o_art_kw o)) as [d E]; [cbn; tauto|]. rewrite E. eapply keeps_some; eauto. }
  assert (ED : nth_error h' (o_dyn_kw o) = nth_error h (o_dyn_kw o)).
  { destruct (F (o_dyn_kw o)) as [d E]; [cbn; tauto|]. rewrite E. eapply keeps_some; eauto. }
  unfold S_Build.acceptable, holds. rewrite EA, ED. reflexivity.
Qed.
Lemma as_given_keeps h h' (o : options) s ml rd : keeps h h' -> typed h o -> as_given h' o s ml rd -> as_given h o s ml rd.
Proof.
  intros K [_ F] [H1 H2 H3 H4 H5 H6 (dyn & H7 & H7') H8 H9 H10 H11]. unfold addresses in F. rewrite Forall_forall in F.
  constructor; auto; try (eapply holds_keeps; eauto; apply F; cbn; tauto). exists dyn. split; [|exact H7']. eapply holds_keeps; eauto. apply F; cbn; tauto.
Qed.

(** All generators of one call of RCMG. *)
Lemma build_all_spec (o : options) ml : forall ss h h' r, typed h o -> Forall sound ss -> build_all h o ss ml = (h', r) ->
  match r with
  | Ok cs => Forall (fun s => acceptable h o s ml) ss /\
      forall g cfg, (forall a, (length h <= a < length h')%nat -> nth_error g a = nth_error h' a) -> nth_error g (o_config o) = Some (OConfigs cfg) ->
        Forall2 (fun s c => exists rd, call_reads g c = Ok rd /\ as_given h o s ml rd /\ r_configs rd = cfg) ss cs
  | Err _ => ~ Forall (fun s => acceptable h o s ml) ss
  end.
Proof.
  induction ss as [|s ss IH]; intros h h' r TY SS H; cbn [build_all] in H; [injection H as <- <-; split; [constructor|intros; constructor]|].
  inversion SS as [|? ? S1 SR]; subst. destruct (build h o s ml) as [h1 r1] eqn:B. pose proof (build_keeps _ _ _ _ _ _ B) as K1. destruct (build_spec h o s ml h1 r1 TY S1 B) as [L1 B1].
  destruct r1 as [c|e]; [|injection H as <- <-; intros F; inversion F; contradiction]. destruct B1 as [A1 R1].
  destruct (build_all h1 o ss ml) as [h2 r2] eqn:BA. injection H as <- <-. pose proof (build_all_keeps _ _ _ _ _ _ BA) as K2. pose proof (typed_keeps _ _ _ K1 TY) as TY1. specialize (IH h1 h2 r2 TY1 SR BA).
  assert (FE : Forall (fun s => acceptable h1 o s ml) ss <-> Forall (fun s => acceptable h o s ml) ss).
  { split; apply Forall_impl; intros x; apply (acceptable_keeps h h1 o x ml K1 TY). }
  destruct r2 as [cs|e]; cbn [bind].
  - destruct IH as [A2 R2]. split; [constructor; [exact A1|now apply FE]|]. intros g cfg G GC. constructor.
    + apply R1; auto. intros a La. rewrite G by (destruct K2; lia). apply K2. lia.
    + specialize (R2 g cfg). assert (G2 : forall a, (length h1 <= a < length h2)%nat -> nth_error g a = nth_error h2 a) by (intros a La; apply G; lia). specialize (R2 G2 GC).
      clear - R2 K1 TY. induction R2 as [|x y l l' (rd & Q1 & Q2 & Q3) R IHR]; constructor; auto. exists rd. split; [exact Q1|]. split; [eapply as_given_keeps; eauto|exact Q3].
  - intros F. inversion F; subst. apply IH. now apply FE.
Qed.

Lemma rcmg_inv h (o : options) ss h' r : typed h o -> rcmg h o ss = (h', r) ->
  match r with
  | Ok cs => exists ml cfg, trained_for o ss ml /\ nth_error h (o_config o) = Some (OConfigs cfg) /\ Forall (fun c => is_feasible c = Ok true) cfg /\ build_all h o ss ml = (h', Ok cs)
  | Err e => (~ exists ml cfg, trained_for o ss ml /\ nth_error h (o_config o) = Some (OConfigs cfg) /\ Forall (fun c => is_feasible c = Ok true) cfg) \/
             exists ml, trained_for o ss ml /\ build_all h o ss ml = (h', Err e)
  end.
Proof.
  intros [[cfg EC] _]. unfold rcmg.
  assert (ML : match (match o_ml o with Some ml => Ok ml | None => get_nat ss 0 end) with Ok ml => trained_for o ss ml | Err _ => forall ml, ~ trained_for o ss ml end).
  { unfold trained_for, get_nat. destruct (o_ml o) as [ml|] eqn:M; [now left|]. destruct (nth_error ss 0) as [ml|] eqn:N; [right; auto|]. intros ml [Q|[_ Q]]; congruence. }
  destruct (match o_ml o with Some ml => Ok ml | None => get_nat ss 0 end) as [ml|e]; cbn [bind].
  2:{ intros E. injection E as <- <-. left. intros (ml & _ & T & _). exact (ML _ T). }
  unfold get_configs. rewrite EC. cbn [bind].
  assert (MF : (exists l, mapM (fun c => do b <- is_feasible c; assert_ b) cfg = Ok l) <-> Forall (fun c => is_feasible c = Ok true) cfg).
  { clear. induction cfg as [|c cfg IH]; cbn [mapM]; [split; [constructor|eauto]|]. destruct (is_feasible c) as [[|]|e] eqn:E; cbn [bind assert_].
    - split.
      + intros [l H]. apply bind_Ok in H. destruct H as (x & H & _). constructor; [exact E|]. apply IH. eauto.
      + intros H. inversion H as [|? ? _ F]; subst. destruct (proj2 IH F) as [l ->]. cbn [bind]. eauto.
    - split; [intros [l H]; discriminate|]. intros H. inversion H; congruence.
    - split; [intros [l H]; discriminate|]. intros H. inversion H; congruence. }
  destruct (mapM (fun c => do b <- is_feasible c; assert_ b) cfg) as [l|e]; cbn [bind].
  - intros B. destruct r as [cs|e]; [exists ml, cfg; split; [exact ML|]; split; [reflexivity|]; split; [apply MF; eauto|exact B]|right; eauto].
  - intros E. injection E as <- <-. left. intros (ml' & cfg' & _ & Q & F). assert (cfg' = cfg) by congruence. subst cfg'. apply MF in F. destruct F as [l F]. discriminate.
Qed.
Lemma trained_unique (o : options) ss ml ml' : trained_for o ss ml -> trained_for o ss ml' -> ml = ml'.
Proof. intros [A|[A A']] [B|[B B']]; congruence. Qed.

(** Which combinations of options, systems and configurations are accepted. *)
Theorem C70_accepts h (o : options) ss : typed h o -> Forall sound ss ->
  (exists h' cs, rcmg h o ss = (h', Ok cs)) <->
  (exists ml cfg, trained_for o ss ml /\ nth_error h (o_config o) = Some (OConfigs cfg) /\ Forall (fun c => is_feasible c = Ok true) cfg /\
     Forall (fun s => acceptable h o s ml) ss).
Proof.
  intros TY SS. destruct (rcmg h o ss) as [h' r] eqn:E. pose proof (rcmg_inv h o ss h' r TY E) as I. split.
  - intros (h1 & cs & Q). injection Q as <- ->. destruct I as (ml & cfg & T & C1 & C2 & B). exists ml, cfg. split; [exact T|]. split; [exact C1|]. split; [exact C2|]. apply (build_all_spec o ml ss h h' (Ok cs) TY SS B).
  - intros (ml & cfg & T & C1 & C2 & A). destruct r as [cs|e]; [eauto|]. exfalso. destruct I as [I|(ml' & T' & B)]; [apply I; eauto 6|]. rewrite (trained_unique _ _ _ _ T' T) in B. exact (build_all_spec o ml ss h h' (Err e) TY SS B A).
Qed.

(** Each generator works with the options as they were handed in and with its own system. *)
Theorem C70_as_given h (o : options) ss h' cs : typed h o -> Forall sound ss -> rcmg h o ss = (h', Ok cs) ->
  exists ml cfg, trained_for o ss ml /\ nth_error h (o_config o) = Some (OConfigs cfg) /\
    Forall2 (fun s c => exists rd, call_reads h' c = Ok rd /\ as_given h o s ml rd /\ r_configs rd = cfg) ss cs.
Proof.
  intros TY SS E. destruct (rcmg_inv h o ss h' (Ok cs) TY E) as (ml & cfg & T & C1 & C2 & B). exists ml, cfg. split; [exact T|]. split; [exact C1|].
  apply (build_all_spec o ml ss h h' (Ok cs) TY SS B); [auto|]. eapply keeps_some; [eapply build_all_keeps; exact B|exact C1].
Qed.

Lemma as_given_unique h (o : options) s ml rd rd' : as_given h o s ml rd -> as_given h o s ml rd' -> r_configs rd = r_configs rd' -> rd = rd'.
Proof.
  intros [A1 A2 A3 A4 A5 A6 (d & A7 & A7') A8 A9 A10 A11] [B1 B2 B3 B4 B5 B6 (d' & B7 & B7') B8 B9 B10 B11] CE. unfold holds in *.
  destruct rd as [s1 n1 c1 i1 x1 y1 f1 z1 a1 w1 p1 t1], rd' as [s2 n2 c2 i2 x2 y2 f2 z2 a2 w2 p2 t2]. cbn [r_imu r_axes r_incl r_full r_hz r_art r_dyn r_sys r_noimu r_opts r_rest r_configs] in *.
  assert (i1 = i2) by congruence. assert (x1 = x2) by congruence. assert (y1 = y2) by congruence. assert (f1 = f2) by congruence. assert (z1 = z2) by congruence. assert (a1 = a2) by congruence. assert (d = d') by congruence. subst.
  assert (s1 = s2). { destruct (o_artifacts o); [|congruence]. destruct A8 as (q1 & Q1 & Q2), B8 as (q2 & Q3 & Q4). congruence. }
  assert (n1 = n2). { destruct (o_axes o || o_relpose o || o_incl o); [|congruence]. destruct A9 as (u & -> & U), B9 as (v & -> & V'). f_equal. eapply segments_det; eauto. }
  subst. reflexivity.
Qed.

(** A generator built together with others is the one built alone. *)
Theorem C70_alone h (o : options) ss h' cs ml k s c : typed h o -> Forall sound ss -> o_ml o = Some ml -> rcmg h o ss = (h', Ok cs) -> nth_error ss k = Some s -> nth_error cs k = Some c ->
  exists h1 c1, rcmg h o [s] = (h1, Ok [c1]) /\ call_reads h1 c1 = call_reads h' c.
Proof.
  intros TY SS M E Es Ec. assert (S1 : Forall sound [s]) by (constructor; [|constructor]; rewrite Forall_forall in SS; apply SS; eapply nth_error_In; eauto).
  assert (AC : exists h1 c1, rcmg h o [s] = (h1, Ok c1)).
  { apply (C70_accepts h o [s] TY S1). destruct (proj1 (C70_accepts h o ss TY SS)) as (ml' & cfg & T & C1 & C2 & A); [eauto|]. exists ml', cfg. split; [left; destruct T as [T|[T _]]; congruence|]. split; [exact C1|]. split; [exact C2|].
    constructor; [|constructor]. rewrite Forall_forall in A. apply A. eapply nth_error_In; eauto. }
  destruct AC as (h1 & c1 & E1). destruct (C70_as_given h o ss h' cs TY SS E) as (ml1 & cfg1 & T1 & C1 & F1). destruct (C70_as_given h o [s] h1 c1 TY S1 E1) as (ml2 & cfg2 & T2 & C2 & F2).
  assert (ml1 = ml2) by (destruct T1 as [T1|[T1 _]], T2 as [T2|[T2 _]]; congruence). subst ml2. assert (cfg2 = cfg1) by congruence. subst cfg2.
  inversion F2 as [|? c2 ? l (rd2 & R2 & G2 & K2) F3]; subst. inversion F3; subst. exists h1, c2. split; [exact E1|].
  destruct (Forall2_nth _ _ _ k s c F1 Es Ec) as (rd1 & R1 & G1 & K1). rewrite R1, R2. f_equal. eapply as_given_unique; eauto; congruence.
Qed.

(** ** Programs *)
Fixpoint allowed (st : @state J V C X) (es : list (@event J V C X)) : Prop :=
  match es with [] => True | e :: r => permitted st e /\ allowed (step st e) r end.
Definition valid (st : @state J V C X) : Prop := Forall (fun a => a < length (st_heap st))%nat (st_own st).

Lemma rcmg_keeps h (o : options) ss h' r : rcmg h o ss = (h', r) -> keeps h h'.
Proof. unfold rcmg. destruct (do ml <- _; _) as [ml|e]; intros H; [eapply build_all_keeps; exact H|injection H as <- _; apply keeps_refl]. Qed.

(** What a step does to an object: objects the program does not hold stay as they are; kinds stay. *)
Lemma step_heap (st : @state J V C X) e : valid st -> permitted st e ->
  valid (step st e) /\ (length (st_heap st) <= length (st_heap (step st e)))%nat /\ (forall a, In a (st_own (step st e)) -> In a (st_own st) \/ (length (st_heap st) <= a)%nat) /\
  (forall a, In a (st_own st) -> In a (st_own (step st e))) /\
  (forall a, (a < length (st_heap st))%nat -> ~ In a (st_own st) -> nth_error (st_heap (step st e)) a = nth_error (st_heap st) a) /\
  (forall a cs, nth_error (st_heap st) a = Some (OConfigs cs) -> exists cs', nth_error (st_heap (step st e)) a = Some (OConfigs cs')).
Proof.
  intros VA PE. destruct e as [x|a x|o ss]; cbn [step st_heap st_own].
  - split; [unfold valid; cbn [st_heap st_own]; constructor; [rewrite app_length; cbn; lia|eapply Forall_impl; [|exact VA]; intros b Hb; cbn; rewrite app_length; cbn in *; lia]|]. split; [rewrite app_length; lia|]. split; [intros a [<-|Ha]; auto|]. split; [intros a Ha; now right|].
    split; [intros a Ha _; now apply nth_error_app1|]. intros a cs E. exists cs. rewrite nth_error_app1; [exact E|]. apply nth_error_Some. congruence.
  - destruct PE as (IN & y & Ey & SK). split; [unfold valid; cbn [st_heap st_own]; eapply Forall_impl; [|exact VA]; intros b Hb; cbn in *; rewrite put_obj_length; exact Hb|]. split; [rewrite put_obj_length; auto|]. split; [auto|]. split; [auto|].
    split; [intros b Hb NB; apply put_obj_other; intros ->; contradiction|]. intros b cs E. destruct (Nat.eq_dec a b) as [->|N]; [|exists cs; now rewrite put_obj_other by auto].
    rewrite put_obj_same by (apply nth_error_Some; congruence). rewrite E in Ey. injection Ey as <-. destruct x as [d|cs']; [destruct SK|eauto].
  - destruct (rcmg (st_heap st) o ss) as [h r] eqn:E. apply rcmg_keeps in E. cbn [st_heap st_own]. split; [unfold valid; cbn [st_heap st_own]; eapply Forall_impl; [|exact VA]; intros b Hb; cbn in *; destruct E; lia|]. split; [apply E|]. split; [auto|]. split; [auto|].
    split; [intros b Hb _; now apply E|]. intros b cs Eb. exists cs. eapply keeps_some; eauto.
Qed.
Lemma run_heap : forall es (st : @state J V C X) lo hi a0, valid st -> allowed st es -> (hi <= length (st_heap st))%nat -> (forall a, (lo <= a < hi)%nat -> ~ In a (st_own st)) -> (exists cs, nth_error (st_heap st) a0 = Some (OConfigs cs)) ->
  (forall a, (lo <= a < hi)%nat -> nth_error (st_heap (run_program st es)) a = nth_error (st_heap st) a) /\ (exists cs, nth_error (st_heap (run_program st es)) a0 = Some (OConfigs cs)).
Proof.
  induction es as [|e es IH]; intros st lo hi a0 VA AL LE NI [cs EC]; [split; [reflexivity|exists cs; exact EC]|]. destruct AL as [PE AL]. destruct (step_heap st e VA PE) as (V1 & L1 & O1 & _ & H1 & K1).
  change (run_program st (e :: es)) with (run_program (step st e) es). destruct (IH (step st e) lo hi a0 V1 AL) as [H2 K2]; [lia| |exact (K1 _ _ EC)|].
  - intros a La Q. destruct (O1 a Q) as [Q'|Q']; [exact (NI a La Q')|lia].
  - split; [|exact K2]. intros a La. rewrite H2 by exact La. apply H1; [lia|auto].
Qed.
Lemma run_built : forall es (st : @state J V C X), exists l, st_built (run_program st es) = st_built st ++ l.
Proof.
  induction es as [|e es IH]; intros st; [exists []; cbn; now rewrite app_nil_r|]. change (run_program st (e :: es)) with (run_program (step st e) es). destruct (IH (step st e)) as [l ->].
  destruct e as [x|a x|o ss]; cbn [step st_built]; eauto. destruct (rcmg (st_heap st) o ss) as [h r]. cbn [st_built]. rewrite <- app_assoc. eauto.
Qed.
Lemma run_valid : forall es (st : @state J V C X), valid st -> allowed st es -> valid (run_program st es).
Proof. induction es as [|e es IH]; intros st VA AL; [exact VA|]. destruct AL as [PE AL]. apply (IH (step st e)); [apply step_heap; auto|exact AL]. Qed.
Lemma allowed_app : forall es (st : @state J V C X) fs, allowed st (es ++ fs) <-> allowed st es /\ allowed (run_program st es) fs.
Proof. induction es as [|e es IH]; intros st fs; cbn [allowed app]; [cbn; tauto|]. rewrite IH. change (run_program st (e :: es)) with (run_program (step st e) es). tauto. Qed.
Lemma run_program_app es fs (st : @state J V C X) : run_program st (es ++ fs) = run_program (run_program st es) fs.
Proof. unfold M_Build.run_program. apply fold_left_app. Qed.

(** Whatever a program does before and after building a generator, also to the very dictionaries it handed in, and whatever else it builds:
    when called, the generator works with the dictionaries as they were when it was built.  The list of configurations is read anew. *)
Theorem C70_history (st : @state J V C X) es1 o ss es2 cs : valid st -> allowed st (es1 ++ Build o ss :: es2) -> Forall sound ss ->
  let before := run_program st es1 in
  let after := run_program st (es1 ++ Build o ss :: es2) in
  nth_error (st_built after) (length (st_built before)) = Some (Ok cs) ->
  exists ml cfg, trained_for o ss ml /\ nth_error (st_heap after) (o_config o) = Some (OConfigs cfg) /\
    Forall2 (fun s c => exists rd, call_reads (st_heap after) c = Ok rd /\ as_given (st_heap before) o s ml rd /\ r_configs rd = cfg) ss cs.
Proof.
  intros VA AL SS before after. apply allowed_app in AL. destruct AL as [AL1 [PE AL2]]. fold before in PE, AL2. pose proof (run_valid es1 st VA AL1) as V1. fold before in V1.
  assert (EA : after = run_program (step before (Build o ss)) es2) by (unfold after; rewrite run_program_app; reflexivity).
  destruct (step_heap before (Build o ss) V1 PE) as (V2 & L2 & O2 & _ & H2 & K2). rewrite EA. cbn [step] in *. destruct (rcmg (st_heap before) o ss) as [h r] eqn:E. cbn [st_heap st_own] in *.
  destruct (run_built es2 (mkSt h (st_own before) (st_built before ++ [r]))) as [l ->]. cbn [st_built]. rewrite <- app_assoc. cbn [app]. rewrite nth_error_end. intros Q. injection Q as ->.
  destruct PE as (OC & OA & TY). destruct (rcmg_inv (st_heap before) o ss h (Ok cs) TY E) as (ml & cfg0 & T & C1 & _ & B). destruct (K2 _ _ C1) as [cfg1 C1'].
  destruct (run_heap es2 (mkSt h (st_own before) (st_built before ++ [Ok cs])) (length (st_heap before)) (length h) (o_config o) V2 AL2) as [HH [cfg CC]]; cbn [st_heap st_own]; [lia| |eauto|].
  - intros a La Q. unfold valid in V1. rewrite Forall_forall in V1. specialize (V1 a Q). lia.
  - exists ml, cfg. split; [exact T|]. split; [exact CC|]. apply (build_all_spec o ml ss (st_heap before) h (Ok cs) TY SS B); [exact HH|exact CC].
Qed.

(** Not so for the list of configurations: putting other configurations into it changes generators built before. *)
Theorem C70_configs_refuted (st : @state J V C X) o s cs cfg h : valid st -> permitted st (Build o [s]) -> sound s -> rcmg (st_heap st) o [s] = (h, Ok cs) ->
  exists c rd, cs = [c] /\ call_reads (st_heap (run_program st [Build o [s]; Change (o_config o) (OConfigs cfg)])) c = Ok rd /\ r_configs rd = cfg.
Proof.
  intros VA PE SS E. assert (AL : allowed st ([] ++ Build o [s] :: [Change (o_config o) (OConfigs cfg)])).
  { cbn [app allowed]. split; [exact PE|]. cbn [step]. rewrite E. cbn [permitted st_heap st_own]. destruct PE as (OC & _ & ([cfg0 E0] & _)). split; [split; [exact OC|]|exact Logic.I].
    exists (OConfigs cfg0). split; [eapply keeps_some; [eapply rcmg_keeps; exact E|exact E0]|exact Logic.I]. }
  pose proof (C70_history st [] o [s] [Change (o_config o) (OConfigs cfg)] cs VA AL (Forall_cons s SS (Forall_nil _))) as H. cbv zeta in H. cbn [app] in H.
  change (run_program st []) with st in H. destruct H as (ml & cfg1 & T & C1 & F).
  - cbn [fold_left M_Build.run_program step]. unfold M_Build.run_program. cbn [fold_left step]. rewrite E. cbn [step st_built]. apply nth_error_end.
  - inversion F as [|? c ? l (rd & R & _ & K) F']; subst. inversion F'; subst. exists c, rd. split; [reflexivity|]. split; [exact R|]. 
    assert (X1 : nth_error (st_heap (run_program st [Build o [s]; Change (o_config o) (OConfigs cfg)])) (o_config o) = Some (OConfigs cfg)).
    { unfold M_Build.run_program. cbn [fold_left step]. rewrite E. cbn [step st_heap]. apply put_obj_same. apply nth_error_Some. destruct PE as (_ & _ & ([cfg0 E0] & _)). intros Q. pose proof (keeps_some _ _ _ _ (rcmg_keeps _ _ _ _ _ E) E0). congruence. }
    congruence.
Qed.
End Build.
