(** * C66: random streams of links and of sequences are independent. *)
From Coq Require Import Reals Lra Lia ZArith Bool String FunctionalExtensionality List.
From Verif Require Import Prelude M_Sys M_Math M_Geom M_Joint M_Kin M_Random M_Draw M_Setup M_Compose M_Pd C_Dynsim M_Target M_Sens M_Rcmg S_Sys S_Draw S_Stream P_Sys P_Stream P_Rcmg P_Artifact P_Delete2 P_History S_Random S_Kin X_Demo C_Kin C_Random C_Draw S_Setup C_Setup.
Import ListNotations.
Local Open Scope R_scope.
Notation splits := S_Stream.splits.

(** ** Disjointness of streams: the split made at a given depth *)
Lemma below_at (p k : path) d : below p k -> (d < length p)%nat -> nth_error (rev k) d = nth_error (rev p) d.
Proof. intros (q & ->) H. rewrite rev_app_distr, nth_error_app1; [reflexivity|]. rewrite rev_length. exact H. Qed.
Lemma at_top (x : nat * nat) (p : path) : nth_error (rev (x :: p)) (length p) = Some x.
Proof. cbn [rev]. rewrite nth_error_app2 by (rewrite rev_length; lia). rewrite rev_length, Nat.sub_diag. reflexivity. Qed.
Definition later (k : path) (m : nat) : path := Nat.iter m (cons (3, 0)%nat) k.
Lemma later_S k m : later k (S m) = (3, 0)%nat :: later k m. Proof. reflexivity. Qed.
Lemma later_length k m : length (later k m) = (m + length k)%nat.
Proof. induction m as [|m IH]; [reflexivity|]. rewrite later_S. cbn [length]. rewrite IH. lia. Qed.
Lemma later_later k a b : later (later k a) b = later k (a + b).
Proof. induction b as [|b IH]; [now rewrite Nat.add_0_r|]. rewrite later_S, IH, Nat.add_succ_r. reflexivity. Qed.
Lemma later_below k m : below k (later k m).
Proof. induction m as [|m IH]; [apply below_refl|]. rewrite later_S. auto with keys. Qed.
Lemma later_at k m d : (d < m)%nat -> nth_error (rev (later k m)) (d + length k) = Some (3, 0)%nat.
Proof.
  intros H. replace m with (S d + (m - S d))%nat by lia. rewrite <- later_later.
  rewrite (below_at (later k (S d))); [|apply later_below|rewrite later_length; lia]. rewrite later_S.
  replace (d + length k)%nat with (length (later k d)) by (rewrite later_length; lia). apply at_top.
Qed.
Lemma stream_at x p k : under (x :: p) k -> nth_error (rev k) (length p) = Some x.
Proof. intros H. rewrite (below_at (x :: p)); [apply at_top|exact H|cbn; lia]. Qed.
Lemma stream_later x k m p d : under (x :: later k m) p -> (d < m)%nat -> nth_error (rev p) (d + length k) = Some (3, 0)%nat.
Proof. intros H Hd. rewrite (below_at (x :: later k m)); [|exact H|cbn [length]; rewrite later_length; lia]. rewrite (below_at (later k m)); [now apply later_at|auto with keys|rewrite later_length; lia]. Qed.
Lemma stream_later_top x k m p : under (x :: later k m) p -> nth_error (rev p) (m + length k) = Some x.
Proof. intros H. apply stream_at in H. now rewrite later_length in H. Qed.

(** The keys of link [i] when coordinates are drawn starting with key [k] *)
Definition link_stream (k : path) (i : nat) : stream := fun p => under ((3, 1)%nat :: later k i) p \/ under ((3, 2)%nat :: later k i) p.
Lemma link_stream_top k i p : link_stream k i p -> exists j, (j = 1 \/ j = 2)%nat /\ nth_error (rev p) (i + length k) = Some (3%nat, j).
Proof. intros [H|H]; apply stream_later_top in H; eauto. Qed.
Lemma link_stream_before k i p d : link_stream k i p -> (d < i)%nat -> nth_error (rev p) (d + length k) = Some (3, 0)%nat.
Proof. intros [H|H] D; eapply stream_later; eauto. Qed.
Lemma link_streams_apart k : apart (link_stream k).
Proof.
  intros i j NE p [A B].
  assert (X : forall a b, (a < b)%nat -> link_stream k a p -> link_stream k b p -> False).
  { intros a b L H1 H2. destruct (link_stream_top _ _ _ H1) as (x & D & E). rewrite (link_stream_before _ _ _ a H2 L) in E. injection E as <-. lia. }
  destruct (Nat.lt_total i j) as [L|[->|L]]; [eauto|contradiction|eauto].
Qed.
Lemma link_stream_next k i m p : (i < m)%nat -> link_stream k i p -> under (later k m) p -> False.
Proof.
  intros L H1 H2. destruct (link_stream_top _ _ _ H1) as (x & D & E). rewrite (below_at (later k m)) in E; [|exact H2|rewrite later_length; lia].
  rewrite later_at in E by exact L. injection E as <-. lia.
Qed.

(** ** Drawing coordinates *)
Section Draw.
Context {P O : Type}.
Notation rsys := (System R (plink (params P)) geometry O).
Variable W : widths.
Variable draws : rng path -> string -> option (option (draw_fn (K := path) P)).
Variable overwrite : string -> option (mconfig -> mconfig).
Hypothesis LD : local_draws draws.

Lemma key_of_later g k i : splits g -> key_of g k i = later k i.
Proof. intros Sg. induction i as [|i IH]; [reflexivity|]. cbn [key_of]. rewrite IH, Sg. reflexivity. Qed.
Lemma drawn_local g g' key (s : rsys) c N i : splits g -> splits g' -> same_on g g' (link_stream key i) ->
  drawn_for g (draws g) overwrite key s c N i = drawn_for g' (draws g') overwrite key s c N i.
Proof.
  intros Sg Sg' H. unfold drawn_for. destruct (nth_error (link_types s) i) as [typ|]; [|reflexivity]. destruct (nth_error (links s) i) as [l|]; [|reflexivity].
  destruct (limit_scope typ (pl_params l)) as [pr|]; [|reflexivity]. cbn [bind]. specialize (LD g g' typ Sg Sg').
  destruct (draws g typ) as [[f|]|], (draws g' typ) as [[f'|]|]; try contradiction; [|reflexivity..]. cbn [bind].
  rewrite (key_of_later g) by exact Sg. rewrite (key_of_later g') by exact Sg'. rewrite !Sg, !Sg'. apply LD; intros p Hp; apply H; [left|right]; exact Hp.
Qed.
Lemma draw_local g g' key (s : rsys) c N : wf W s -> num_links s <> 0%nat -> splits g -> splits g' -> (forall i, (i < num_links s)%nat -> same_on g g' (link_stream key i)) ->
  draw_random_q g W (draws g) overwrite key s c N = draw_random_q g' W (draws g') overwrite key s c N.
Proof.
  intros WF NZ Sg Sg' H. rewrite !draw_each by assumption. rewrite (key_of_later g), (key_of_later g') by assumption.
  rewrite (mapM_ext (drawn_for g (draws g) overwrite key s c N) (drawn_for g' (draws g') overwrite key s c N)); [reflexivity|].
  intros i Hi. apply in_seq in Hi. apply drawn_local; auto. apply H. lia.
Qed.

(** Every link has its own random stream, and the key handed back is fresh. *)
Theorem C66_links key (s : rsys) c N : wf W s -> num_links s <> 0%nat ->
  exists (own : nat -> stream) (next : path), apart own /\ (forall i, (i < num_links s)%nat -> disjoint (own i) (under next)) /\
    (forall i p, own i p -> below key p) /\ below key next /\
    forall g g', splits g -> splits g' ->
      (forall k q, draw_random_q g W (draws g) overwrite key s c N = Ok (k, q) -> k = next) /\
      (forall i, same_on g g' (own i) -> drawn_for g (draws g) overwrite key s c N i = drawn_for g' (draws g') overwrite key s c N i).
Proof.
  intros WF NZ. exists (link_stream key), (later key (num_links s)). split; [apply link_streams_apart|].
  split; [intros i Hi p [A B]; eapply link_stream_next; eauto|]. split; [|split; [apply later_below|]].
  - intros i p [H|H]; (eapply below_trans; [|exact H]); apply below_cons, later_below.
  - intros g g' Sg Sg'. split; [|intros i; now apply drawn_local].
    intros k q E. apply C65_each in E; auto. destruct E as [-> _]. now apply key_of_later.
Qed.
End Draw.

Theorem C66_builtin_draws {P} parse_float : local_draws (P := P) (fun g => builtin_draw g parse_float).
Proof.
  intros g g' typ Sg Sg'. unfold builtin_draw, builtin_draws.
  repeat (cbn [dget option_map]; match goal with |- context [if String.eqb typ ?x then _ else _] => destruct (String.eqb typ x) end; [cbn [option_map]; intros c kt kv dt N p Ht Hv|]).
  all: try (cbn [dget option_map]; exact Logic.I).
  all: eauto using free_local, cor_local, free_2d_local, spherical_local, saddle_local.
  - now apply p3d_local.
  - now rewrite (rxyz_local g g').
  - now rewrite (rxyz_local g g').
  - now rewrite (rxyz_local g g').
  - unfold draw_pxyz. now rewrite (pos_local g g').
  - unfold draw_pxyz. now rewrite (pos_local g g').
  - unfold draw_pxyz. now rewrite (pos_local g g').
Qed.

(** ** The generator *)
Section Gen.
Context {P O : Type}.
Notation rsys := (System R (plink (params P)) geometry O).
Variable W : widths.
Variable ops : parse_ops R (plink (params P)) geometry.
Variable table : joint_table P.
Variable draws : rng path -> string -> option (option (draw_fn (K := path) P)).
Variable overwrite : string -> option (mconfig -> mconfig).
Variable inits : rng path -> string -> option (option (path -> P)).
Variable pdefault : P.
Variable gauss : R -> R.
Variable rr_axis : string -> params P -> result vec3.
Hypotheses (LD : local_draws draws) (LI : local_inits inits) (LAWS : ops_laws ops).
Notation opts := (gen_opts (K := path) (P := P) (O := O)).
Notation generate o sys_ml s g key := (gen W ops table draws overwrite inits pdefault gauss rr_axis o sys_ml s g key).
Notation setup := (setup_all W ops inits pdefault).

(** Functions given by the user draw only with their own keys. *)
Definition user_local (o : opts) : Prop :=
  (forall f, go_setup o = Some f -> local f) /\ (forall f, go_final o = Some f -> forall q x s, local (fun g k (_ : unit) => f g k q x s)).

Lemma run_setup_local fs : Forall local fs -> forall g g' k (s : rsys), splits g -> splits g' -> same_on g g' (under k) -> run_setup g fs k s = run_setup g' fs k s.
Proof.
  intros F. induction F as [|f fs L F IH]; intros g g' k s Sg Sg' H; cbn [run_setup]; [reflexivity|]. rewrite !Sg, !Sg'.
  rewrite (L g g' _ s Sg Sg') by now apply same_split. destruct (f g' _ s); [|reflexivity]. cbn [bind]. apply IH; auto. now apply same_split.
Qed.
Lemma setup_local o g g' k (s : rsys) : user_local o -> splits g -> splits g' -> same_on g g' (under k) -> setup g o k s = setup g' o k s.
Proof.
  intros [US _] Sg Sg' H. unfold setup_all. rewrite (run_setup_local (setup_pipe W inits pdefault o)) with (g' := g'); auto. unfold setup_pipe.
  apply Forall_app; split; [|apply Forall_app; split; [|apply Forall_app; split]].
  - destruct (go_damping o); repeat constructor. intros h h' k0 a S1 S2 S3. now apply damping_eq.
  - destruct (go_positions o); repeat constructor. intros h h' k0 a S1 S2 S3. now apply randomize_positions_eq.
  - destruct (go_params o); repeat constructor. intros h h' k0 a S1 S2 S3. apply init_params_eq; auto. intros typ. specialize (LI h h' typ S1 S2).
    destruct (inits h typ) as [[f|]|], (inits h' typ) as [[f'|]|]; auto. intros k' B. apply LI. eapply same_under; eauto.
  - destruct (go_setup o) as [f|]; repeat constructor. now apply US.
Qed.
Lemma stages_local o noimu stages : user_local o -> finalize_pipe W ops gauss rr_axis o noimu = Ok stages -> Forall local_stage stages.
Proof.
  intros [_ UF] E. unfold finalize_pipe in E.
  apply bind_Ok in E. destruct E as (p1 & E1 & E). apply bind_Ok in E. destruct E as (p2 & E2 & E). apply bind_Ok in E. destruct E as (p3 & E3 & E).
  apply bind_Ok in E. destruct E as (p4 & E4 & E). apply bind_Ok in E. destruct E as (p5 & E5 & E). injection E as <-.
  apply Forall_app; split; [|apply Forall_app; split; [|apply Forall_app; split; [|apply Forall_app; split; [|apply Forall_app; split; [|apply Forall_app; split; [|apply Forall_app; split]]]]]].
  - apply Forall_map, Forall_forall. intros f _. apply quiet_local.
  - destruct (go_final o) as [f|] eqn:GF; [|constructor]. constructor; [|constructor]. apply finalize_local. now apply UF.
  - destruct (go_imu o); [|constructor]. constructor; [|constructor]. apply imu_local.
  - destruct (go_axes o); [|injection E1 as <-; constructor]. apply bind_Ok in E1. destruct E1 as (? & _ & E1). injection E1 as <-. constructor; [|constructor]. apply axes_local.
  - destruct (go_relpose o); [|injection E2 as <-; constructor]. apply bind_Ok in E2. destruct E2 as (? & _ & E2). injection E2 as <-. constructor; [|constructor]. apply target_local.
  - destruct (go_rootincl o); [|injection E3 as <-; constructor]. apply bind_Ok in E3. destruct E3 as (? & _ & E3). apply bind_Ok in E3. destruct E3 as (? & _ & E3). injection E3 as <-. constructor; [|constructor]. apply target_local.
  - destruct (go_rootfull o); [|injection E4 as <-; constructor]. apply bind_Ok in E4. destruct E4 as (? & _ & E4). injection E4 as <-. constructor; [|constructor]. apply target_local.
  - destruct (go_numbers o); [|injection E5 as <-; constructor]. apply bind_Ok in E5. destruct E5 as (? & _ & E5). injection E5 as <-. constructor; [|constructor]. apply number_local.
Qed.

(** ** The setup functions keep the number of links *)
Definition kept (s s' : rsys) : Prop := wf W s' /\ num_links s' = num_links s.
Lemma frame_kept (s s' : rsys) : wf W s -> same_frame s s' -> length (links s') = length (links s) ->
  length (link_damping s') = length (link_damping s) -> length (link_spring_stiffness s') = length (link_spring_stiffness s) -> kept s s'.
Proof.
  intros [T Lk Nm Om U Tp Ge (qs & ds & A1 & A2 & A3 & A4 & A5 & A6)] (F1 & F2 & F3 & F4 & F5 & F6 & F7 & F8 & F9 & F10 & F11 & F12) L1 L2 L3.
  split; [|unfold num_links; now rewrite F1]. constructor; rewrite ?F1, ?F2, ?F3, ?F4, ?F5, ?F7, ?F12, ?L1; auto. exists qs, ds. rewrite L2, L3. auto 8.
Qed.
Lemma set_at_all_length arr idx v r : set_at_all arr idx v = Ok r -> length r = length arr.
Proof.
  unfold set_at_all. destruct (length v =? length idx)%nat; [intros E; injection E as <-; apply put_all_length|].
  destruct (length v =? 1)%nat; [intros E; injection E as <-; apply put_all_length|discriminate].
Qed.
Lemma damp_step_length (g : rng path) d m key r t st dp n v : damp_step g d m (key, r, t, st, dp) n = Ok v -> length (snd (fst v)) = length st /\ length (snd v) = length dp.
Proof.
  intros E. unfold damp_step in E. do 2 (apply bind_Ok in E; destruct E as (? & _ & E)). apply bind_Ok in E. destruct E as (((r1 & t1) & (a & b)) & _ & E).
  apply bind_Ok in E. destruct E as (st' & E1 & E). apply bind_Ok in E. destruct E as (d' & E2 & E). injection E as <-. cbn [fst snd].
  split; eapply set_at_all_length; eauto.
Qed.
Lemma damping_kept (g : rng path) d k (s s' : rsys) : wf W s -> randomize_damping_stiffness g W d k s = Ok s' -> kept s s'.
Proof.
  intros WF E. unfold randomize_damping_stiffness in E. do 3 (apply bind_Ok in E; destruct E as (? & _ & E)). apply bind_Ok in E. destruct E as (m & _ & E).
  apply bind_Ok in E. destruct E as (((((key & r) & t) & st) & dp) & E1 & E). do 2 (apply bind_Ok in E; destruct E as (? & _ & E)). injection E as <-.
  assert (X : forall l v0 v1, foldM (damp_step g d m) v0 l = Ok v1 -> length (snd (fst v1)) = length (snd (fst v0)) /\ length (snd v1) = length (snd v0)).
  { clear. induction l as [|n l IH]; intros v0 v1 E; cbn [foldM] in E; [injection E as <-; auto|]. apply bind_Ok in E. destruct E as (v & E1 & E).
    destruct v0 as ((((key & r) & t) & st) & dp). apply damp_step_length in E1. apply IH in E. cbn [fst snd] in *. destruct E1, E. split; congruence. }
  apply X in E1. cbn [fst snd] in E1. destruct E1 as [L1 L2]. apply frame_kept; auto. repeat split.
Qed.
Lemma positions_kept (g : rng path) k (s s' : rsys) : wf W s -> randomize_positions g k s = Ok s' -> kept s s'.
Proof.
  intros WF E. unfold randomize_positions in E. injection E as <-. apply frame_kept; auto; [repeat split|]. cbn [links with_links].
  generalize (links s) as ls. intros ls. revert k. induction ls as [|l ls IH]; intros k; cbn [positions_loop draw_pos_uniform]; [reflexivity|]. cbn [length]. now rewrite IH.
Qed.
Lemma params_kept (g : rng path) i k (s s' : rsys) : wf W s -> init_joint_params g i pdefault k s = Ok s' -> kept s s'.
Proof.
  intros WF E. unfold init_joint_params in E. apply bind_Ok in E. destruct E as (? & _ & E). apply bind_Ok in E. destruct E as (? & _ & E). injection E as <-.
  apply frame_kept; auto; [repeat split|]. cbn [links with_links]. rewrite map_length, combine_length, seq_length. pose proof (wf_links _ _ WF). unfold num_links. lia.
Qed.
Lemma cor_kept (s s' : rsys) : wf W s -> replace_free_with_cor W ops s = Ok s' -> kept s s'.
Proof.
  intros WF E. unfold replace_free_with_cor in E. destruct (cor_compatible s); [|discriminate].
  split; [apply (pd_wf _ _ _ (update_keeps_parsed W ops LAWS s _ s' (wf_topo _ _ WF) E))|]. unfold update_joint_types in E.
  do 7 (apply bind_Ok in E; destruct E as (? & _ & E)). apply parse_iff in E. destruct E as (-> & _). reflexivity.
Qed.
(** What the user's setup function makes of a system has as many links. *)
Definition user_keeps (o : opts) : Prop :=
  forall f g k (s s' : rsys), go_setup o = Some f -> splits g -> wf W s -> f g k s = Ok s' -> wf W s' /\ num_links s' = num_links s.
Lemma setup_kept o g k (s s' : rsys) : user_keeps o -> splits g -> wf W s -> setup g o k s = Ok s' -> kept s s'.
Proof.
  intros UK Sg WF E. unfold setup_all in E. apply bind_Ok in E. destruct E as (s1 & E1 & E2).
  assert (X : forall fs, (forall f, In f fs -> forall k (s s' : rsys), wf W s -> f g k s = Ok s' -> kept s s') -> forall k (s s' : rsys), wf W s -> run_setup g fs k s = Ok s' -> kept s s').
  { clear - Sg. induction fs as [|f fs IH]; intros H k s s' WF E; cbn [run_setup] in E; [injection E as <-; now split|]. apply bind_Ok in E. destruct E as (s1 & E1 & E).
    apply H in E1; [|now left|exact WF]. destruct E1 as [W1 N1]. apply IH in E; auto; [|intros f' Hf; apply H; now right]. destruct E as [W2 N2]. split; [exact W2|congruence]. }
  apply X in E1; [|clear - UK Sg|exact WF].
  - destruct E1 as [W1 N1]. destruct (go_cor o); [|injection E2 as <-; now split]. apply cor_kept in E2; auto. destruct E2. split; [assumption|congruence].
  - intros f IN k s s' WF E. unfold setup_pipe in IN. repeat rewrite in_app_iff in IN. destruct IN as [IN|[IN|[IN|IN]]].
    + destruct (go_damping o); [|destruct IN]. destruct IN as [<-|[]]. eapply damping_kept; eauto.
    + destruct (go_positions o); [|destruct IN]. destruct IN as [<-|[]]. eapply positions_kept; eauto.
    + destruct (go_params o); [|destruct IN]. destruct IN as [<-|[]]. eapply params_kept; eauto.
    + destruct (go_setup o) as [f'|] eqn:GS; [|destruct IN]. destruct IN as [<-|[]]. eapply UK; eauto.
Qed.

Lemma draw_all_nth g N L : splits g -> L <> 0%nat -> forall (sc : list (rsys * mconfig)) k k' qs, (forall sc1, In sc1 sc -> wf W (fst sc1) /\ num_links (fst sc1) = L) -> draw_all W draws overwrite g k N sc = Ok (k', qs) ->
  k' = later k (length sc * L) /\ length qs = length sc /\
  forall i s c, nth_error sc i = Some (s, c) -> exists q, nth_error qs i = Some q /\ draw_random_q g W (draws g) overwrite (later k (i * L)) s c N = Ok (later k (S i * L), q).
Proof.
  intros Sg NZ. induction sc as [|[s c] r IH]; intros k k' qs H E; cbn [draw_all] in E.
  - injection E as <- <-. split; [reflexivity|]. split; [reflexivity|]. intros [|i] s c X; discriminate.
  - apply bind_Ok in E. destruct E as ([k1 q1] & E1 & E). apply bind_Ok in E. destruct E as ([k2 q2] & E2 & E). injection E as <- <-. cbn [fst snd] in *.
    destruct (H (s, c) (or_introl eq_refl)) as [WF NL]. cbn [fst] in WF, NL.
    assert (K1 : k1 = later k L). { pose proof E1 as E1'. apply C65_each in E1'; [|exact WF|lia]. destruct E1' as [-> _]. rewrite key_of_later by exact Sg. now rewrite NL. }
    subst k1. destruct (IH _ _ _ (fun x Hx => H x (or_intror Hx)) E2) as (-> & LQ & Q). rewrite later_later. cbn [length]. split; [f_equal|]. split; [now rewrite LQ|].
    intros [|i] s' c' X; cbn [nth_error] in X |- *.
    + injection X as <- <-. exists q1. split; [reflexivity|]. cbn [Nat.mul]. rewrite Nat.add_0_r. exact E1.
    + destruct (Q i s' c' X) as (q & X1 & X2). exists q. split; [exact X1|]. rewrite !later_later in X2. exact X2.
Qed.

(** the keys of the generator: for the motion, for the sampling rate, for sequence [i] *)
Definition draw_key (o : opts) (key : path) : path :=
  let k := (length (go_configs o) + 1, 0)%nat :: key in match go_rates o with Some _ => (2, 0)%nat :: k | None => k end.
Definition rate_stream (o : opts) (key : path) : stream :=
  match go_rates o with Some _ => under ((2, 1)%nat :: (length (go_configs o) + 1, 0)%nat :: key) | None => fun _ => False end.
Definition sequence_stream (o : opts) (key : path) (L i : nat) : stream := fun p =>
  (i < length (go_configs o))%nat /\
  (under ((length (go_configs o) + 1, S i)%nat :: key) p \/ (exists j, (j < L)%nat /\ link_stream (draw_key o key) (i * L + j) p) \/
   under ((length (go_configs o), i) :: later (draw_key o key) (length (go_configs o) * L)) p).

Lemma draw_key_below o key : below ((length (go_configs o) + 1, 0)%nat :: key) (draw_key o key).
Proof. unfold draw_key. destruct (go_rates o); auto with keys. Qed.
Lemma sequences_apart o key L : apart (sequence_stream o key L).
Proof.
  intros i j NE p [(Hi & A) (Hj & B)]. set (n := length (go_configs o)) in *. set (k0 := draw_key o key) in *.
  assert (D0 : forall m, below ((n + 1, 0)%nat :: key) (later k0 m)) by (intros m; eapply below_trans; [apply draw_key_below|apply later_below]).
  assert (TOP : forall a, (exists j, (j < L)%nat /\ link_stream k0 (a * L + j) p) \/ under ((n, a) :: later k0 (n * L)) p -> nth_error (rev p) (length key) = Some (n + 1, 0)%nat).
  { intros a H. enough (B0 : below ((n + 1, 0)%nat :: key) p) by (apply stream_at; exact B0). destruct H as [(jj & _ & [H|H])|H]; (eapply below_trans; [|exact H]); apply below_cons, D0. }
  assert (MID : forall a b, a <> b -> (a < n)%nat -> (b < n)%nat -> (exists j, (j < L)%nat /\ link_stream k0 (a * L + j) p) ->
     ((exists j, (j < L)%nat /\ link_stream k0 (b * L + j) p) \/ under ((n, b) :: later k0 (n * L)) p) -> False).
  { intros a b NAB La Lb (u & Hu & X) [(v & Hv & Y)|Y].
    - apply (link_streams_apart k0 (a * L + u)%nat (b * L + v)%nat) with (k := p); [|auto]. intros E. apply NAB.
      destruct (Nat.lt_total a b) as [Q|[Q|Q]]; [exfalso; assert (S a * L <= b * L)%nat by (apply Nat.mul_le_mono_r; lia); lia|exact Q|exfalso; assert (S b * L <= a * L)%nat by (apply Nat.mul_le_mono_r; lia); lia].
    - eapply (link_stream_next k0 (a * L + u)%nat (n * L)%nat); [|exact X|].
      + assert (S a * L <= n * L)%nat by (apply Nat.mul_le_mono_r; lia). lia.
      + eapply below_trans; [|exact Y]. auto with keys. }
  destruct A as [A|A], B as [B|B].
  - apply stream_at in A, B. congruence.
  - apply stream_at in A. apply TOP in B. congruence.
  - apply stream_at in B. apply TOP in A. congruence.
  - destruct A as [A|A], B as [B|B].
    + apply (MID i j); auto.
    + apply (MID i j); auto.
    + apply (MID j i); auto.
    + apply stream_at in A, B. congruence.
Qed.
Lemma rate_apart o key L i : disjoint (sequence_stream o key L i) (rate_stream o key).
Proof.
  intros p [(Hi & A) B]. unfold rate_stream in B. set (n := length (go_configs o)) in *.
  assert (D0 : forall m, go_rates o <> None -> below ((2, 0)%nat :: (n + 1, 0)%nat :: key) (later (draw_key o key) m)).
  { intros m H. eapply below_trans; [|apply later_below]. unfold draw_key. destruct (go_rates o); [auto with keys|contradiction]. }
  destruct (go_rates o); [|exact B].
  assert (D1 : forall m, below ((2, 0)%nat :: (n + 1, 0)%nat :: key) (later (draw_key o key) m)) by (intros m; apply D0; discriminate).
  pose proof (stream_at _ _ _ B) as B1. assert (B2 : under ((n + 1, 0)%nat :: key) p) by (eapply below_trans; [|exact B]; auto with keys). apply stream_at in B2.
  destruct A as [A|[(u & Hu & [A|A])|A]].
  - apply stream_at in A. congruence.
  - assert (X : under ((2, 0)%nat :: (n + 1, 0)%nat :: key) p) by (eapply below_trans; [|exact A]; apply below_cons, D1). apply stream_at in X. congruence.
  - assert (X : under ((2, 0)%nat :: (n + 1, 0)%nat :: key) p) by (eapply below_trans; [|exact A]; apply below_cons, D1). apply stream_at in X. congruence.
  - assert (X : under ((2, 0)%nat :: (n + 1, 0)%nat :: key) p) by (eapply below_trans; [|exact A]; apply below_cons, D1). apply stream_at in X. congruence.
Qed.

Lemma draw_key_below_key o key m : below key (later (draw_key o key) m).
Proof. eapply below_trans; [|apply later_below]. eapply below_trans; [|apply draw_key_below]. auto with keys. Qed.
Lemma sequence_below o key L i p : sequence_stream o key L i p -> below key p.
Proof.
  intros (_ & [A|[(u & _ & [A|A])|A]]); (eapply below_trans; [|exact A]); auto with keys; apply below_cons, draw_key_below_key.
Qed.
Lemma rate_below o key p : rate_stream o key p -> below key p.
Proof. unfold rate_stream. destruct (go_rates o); [|contradiction]. intros A. eapply below_trans; [|exact A]. auto with keys. Qed.

Lemma pick_rate_key g o key k N dt : splits g -> pick_rate g o ((length (go_configs o) + 1, 0)%nat :: key) = Ok (k, N, dt) -> k = draw_key o key.
Proof.
  intros Sg E. unfold pick_rate in E. unfold draw_key. destruct (go_rates o) as [[[|h hs]|]|]; try discriminate; [|now injection E as <- _ _].
  destruct (go_configs o) as [|c0 cs]; [discriminate|]. apply bind_Ok in E. destruct E as (? & _ & E). injection E as <- _ _. now rewrite Sg.
Qed.
Lemma pick_rate_local g g' o key : splits g -> splits g' -> same_on g g' (rate_stream o key) ->
  pick_rate g o ((length (go_configs o) + 1, 0)%nat :: key) = pick_rate g' o ((length (go_configs o) + 1, 0)%nat :: key).
Proof.
  intros Sg Sg' H. unfold pick_rate, rate_stream in *. destruct (go_rates o) as [[[|h hs]|]|]; try reflexivity. destruct (go_configs o) as [|c0 cs]; [reflexivity|].
  rewrite !Sg, !Sg'. rewrite (sa_int _ _ _ (H _ (below_refl _))). reflexivity.
Qed.

(** Every sequence of a batch has its own random stream; besides, the sequences share the drawn sampling rate. *)
Theorem C66_sequences o sys_ml (s : rsys) key : user_local o -> user_keeps o -> wf W s -> num_links s <> 0%nat ->
  exists (own : nat -> stream) (shared : stream), apart own /\ (forall i, disjoint (own i) shared) /\ (go_rates o = None -> forall k, ~ shared k) /\
    (forall i k, own i k -> below key k) /\ (forall k, shared k -> below key k) /\
    forall g g' out out', splits g -> splits g' -> generate o sys_ml s g key = Ok out -> generate o sys_ml s g' key = Ok out' ->
    length out = length (go_configs o) /\
    forall i, same_on g g' (own i) -> same_on g g' shared -> nth_error out i = nth_error out' i.
Proof.
  intros UL UK WFS0 NZ. set (L := num_links s).
  assert (KEEP : forall g k s', splits g -> setup g o k s = Ok s' -> wf W s' /\ num_links s' = L) by (intros g k s' Sg E; eapply setup_kept; eauto).
  exists (sequence_stream o key L), (rate_stream o key). split; [apply sequences_apart|]. split; [intros i; apply rate_apart|].
  split; [intros E k; unfold rate_stream; now rewrite E|]. split; [apply sequence_below|]. split; [apply rate_below|]. intros g g' out out' Sg Sg' E E'.
  assert (SHAPE : forall h out, splits h -> generate o sys_ml s h key = Ok out -> length out = length (go_configs o) /\
    exists noimu stages k N dt, sys_noimu W ops o sys_ml = Ok noimu /\ finalize_pipe W ops gauss rr_axis o noimu = Ok stages /\
    pick_rate h o ((length (go_configs o) + 1, 0)%nat :: key) = Ok (k, N, dt) /\
    forall i, (i < length (go_configs o))%nat -> exists s1 c q r, setup h o ((length (go_configs o) + 1, S i)%nat :: key) s = Ok s1 /\ nth_error (go_configs o) i = Some c /\
      draw_random_q h W (draws h) overwrite (later (draw_key o key) (i * L)) (match dt with Some dt => with_dt dt s1 | None => s1 end) c N = Ok (later (draw_key o key) (S i * L), q) /\
      context W table h stages (match go_rates o with Some _ => true | None => false end) ((length (go_configs o), i) :: later (draw_key o key) (length (go_configs o) * L)) q
        (match dt with Some dt => with_dt dt s1 | None => s1 end) = Ok r /\ nth_error out i = Some r).
  { clear E E' out out' Sg Sg' g g'. intros g out Sg E. unfold gen in E. apply bind_Ok in E. destruct E as (noimu & E0 & E). cbv zeta in E. set (n := length (go_configs o)) in *.
    apply bind_Ok in E. destruct E as (syss & E1 & E). apply bind_Ok in E. destruct E as (((k & N) & dt) & E2 & E). rewrite Sg in E2.
    apply bind_Ok in E. destruct E as ([kl qs] & E3 & E). apply bind_Ok in E. destruct E as (u & _ & E). apply bind_Ok in E. destruct E as (stages & E4 & E). cbn [fst snd] in E.
    pose proof (pick_rate_key g o key k N dt Sg E2) as KE. subst k.
    pose proof (mapM_Ok_length _ _ _ E1) as L1. rewrite seq_length in L1.
    set (syss' := match dt with Some dt => map (with_dt dt) syss | None => syss end) in *.
    assert (L1' : length syss' = n) by (unfold syss'; destruct dt; rewrite ?map_length; exact L1).
    assert (SY : forall i, (i < n)%nat -> exists s1, setup g o ((n + 1, S i)%nat :: key) s = Ok s1 /\ nth_error syss' i = Some (match dt with Some dt => with_dt dt s1 | None => s1 end)).
    { intros i Hi. assert (SI : nth_error (seq 0 n) i = Some i) by (rewrite nth_error_nth' with (d := 0%nat) by (rewrite seq_length; lia); now rewrite seq_nth by lia).
      destruct (Prelude.mapM_nth _ _ _ _ _ E1 SI) as (s1 & X1 & X2). rewrite Sg in X2. exists s1. split; [exact X2|]. unfold syss'. destruct dt; [rewrite nth_error_map, X1; reflexivity|exact X1]. }
    assert (WFS : forall s1 : rsys, wf W s1 /\ num_links s1 = L -> forall d, wf W (with_dt d s1) /\ num_links (with_dt d s1) = L).
    { intros s1 [X1 X2] d. split; [|exact X2]. destruct X1. constructor; assumption. }
    assert (WA : forall sc1, In sc1 (combine syss' (go_configs o)) -> wf W (fst sc1) /\ num_links (fst sc1) = L).
    { intros [s1 c1] HI. apply In_nth_error in HI. destruct HI as (i & HI). cbn [fst]. assert (Hi : (i < n)%nat). { assert (X : nth_error (combine syss' (go_configs o)) i <> None) by congruence. apply nth_error_Some in X. rewrite combine_length in X. lia. }
      destruct (SY i Hi) as (s2 & Y1 & Y2). destruct (nth_error (go_configs o) i) as [c2|] eqn:C2; [|apply nth_error_None in C2; unfold n in Hi; lia].
      rewrite (C_Xml.nth_combine _ _ i _ c2 Y2 C2) in HI. injection HI as <- <-. apply KEEP in Y1; [|exact Sg]. destruct dt; [now apply WFS|exact Y1]. }
    destruct (draw_all_nth g N L Sg NZ _ _ _ _ WA E3) as (KL & LQ & Q).
    assert (LC : length (combine syss' (go_configs o)) = n) by (rewrite combine_length; fold n; lia). rewrite LC in KL, LQ.
    pose proof (mapM_Ok_length _ _ _ E) as L2. rewrite combine_length, seq_length, combine_length in L2. split; [lia|].
    exists noimu, stages, (draw_key o key), N, dt. split; [exact E0|]. split; [exact E4|]. split; [exact E2|]. intros i Hi.
    destruct (SY i Hi) as (s1 & Y1 & Y2). destruct (nth_error (go_configs o) i) as [c|] eqn:C2; [|apply nth_error_None in C2; unfold n in Hi; lia].
    destruct (Q i _ c (C_Xml.nth_combine _ _ i _ c Y2 C2)) as (q & Q1 & Q2).
    assert (SI : nth_error (seq 0 n) i = Some i) by (rewrite nth_error_nth' with (d := 0%nat) by (rewrite seq_length; lia); now rewrite seq_nth by lia).
    destruct (Prelude.mapM_nth _ _ _ _ _ E (C_Xml.nth_combine _ _ i _ _ SI (C_Xml.nth_combine _ _ i _ _ Q1 Y2))) as (r & R1 & R2). cbn [fst snd] in R2. rewrite Sg, KL in R2.
    exists s1, c, q, r. auto. }
  destruct (SHAPE g out Sg E) as (LO & noimu & stages & k & N & dt & A1 & A2 & A3 & A4). destruct (SHAPE g' out' Sg' E') as (LO' & noimu' & stages' & k' & N' & dt' & B1 & B2 & B3 & B4).
  split; [exact LO|]. intros i OWN SH.
  destruct (Nat.lt_ge_cases i (length (go_configs o))) as [Hi|Hi]; [|rewrite (proj2 (nth_error_None out i)), (proj2 (nth_error_None out' i)) by lia; reflexivity].
  assert (noimu' = noimu) by congruence. subst noimu'. assert (stages' = stages) by congruence. subst stages'.
  rewrite (pick_rate_local g g') in A3 by assumption. rewrite A3 in B3. injection B3 as <- <- <-.
  destruct (A4 i Hi) as (s1 & c & q & r & X1 & X2 & X3 & X4 & X5). destruct (B4 i Hi) as (s1' & c' & q' & r' & Y1 & Y2 & Y3 & Y4 & Y5).
  assert (c' = c) by congruence. subst c'.
  rewrite (setup_local o g g') in X1; [|exact UL|exact Sg|exact Sg'|intros p Hp; apply OWN; split; [exact Hi|now left]].
  assert (s1' = s1) by congruence. subst s1'.
  assert (WS : wf W (match dt with Some dt => with_dt dt s1 | None => s1 end) /\ num_links (match dt with Some dt => with_dt dt s1 | None => s1 end) = L).
  { apply KEEP in Y1; [|exact Sg']. destruct Y1 as [Z1 Z2]. destruct dt; [split; [destruct Z1; constructor; assumption|exact Z2]|auto]. }
  set (s2 := match dt with Some dt => with_dt dt s1 | None => s1 end) in *. destruct WS as [W1 W2].
  rewrite (draw_local W draws overwrite LD g g') in X3; [|exact W1|lia|exact Sg|exact Sg'|].
  2: { intros j Hj p Hp. apply OWN. split; [exact Hi|]. right. left. exists j. split; [lia|]. unfold link_stream in *. now rewrite later_later in Hp. }
  assert (q' = q) by congruence. subst q'.
  assert (X4' : context W table g' stages (match go_rates o with Some _ => true | None => false end) ((length (go_configs o), i) :: later (draw_key o key) (length (go_configs o) * L)) q s2 = Ok r).
  { rewrite <- X4. unfold context. destruct (mapM _ q); [|reflexivity]. cbn [bind]. symmetry. apply run_stages_eq; auto; [eapply stages_local; eauto|]. cbn [key_in].
    intros p Hp. apply OWN. split; [exact Hi|]. right. right. exact Hp. }
  rewrite X5, Y5. congruence.
Qed.
End Gen.

(** ** Examples *)
Definition half : rng path := mkRng (fun k n j => (n, j) :: k) (fun _ => 1 / 2) (fun _ n => repeat (1 / 2) n) (fun _ => true) (fun _ lo _ => lo) (fun _ l => l).
Lemma half_splits : splits half. Proof. intros k n j. reflexivity. Qed.
Lemma half_fair : fair half.
Proof.
  split.
  - intros k. cbn. lra.
  - intros k n. cbn. split; [apply repeat_length|]. apply Forall_forall. intros u Hu. apply repeat_spec in Hu. subst u. lra.
  - intros k l. cbn. reflexivity.
  - intros k lo hi H. cbn. lia.
Qed.
(** draws 1/4 instead of 1/2 with the keys of a set *)
Definition other (A : path -> bool) : rng path :=
  mkRng (fun k n j => (n, j) :: k) (fun k => if A k then 1 / 4 else 1 / 2) (fun k n => repeat (if A k then 1 / 4 else 1 / 2) n) (fun _ => true) (fun _ lo _ => lo) (fun _ l => l).
Lemma other_splits A : splits (other A). Proof. intros k n j. reflexivity. Qed.
Lemma other_fair A : fair (other A).
Proof.
  split.
  - intros k. cbn. destruct (A k); lra.
  - intros k n. cbn. split; [apply repeat_length|]. apply Forall_forall. intros u Hu. apply repeat_spec in Hu. subst u. destruct (A k); lra.
  - intros k l. cbn. reflexivity.
  - intros k lo hi H. cbn. lia.
Qed.
Lemma mapM_exists {A B} (f : A -> result B) l : (forall a, In a l -> exists b, f a = Ok b) -> exists l', mapM f l = Ok l'.
Proof.
  induction l as [|a l IH]; intros H; [now exists []|]. cbn [mapM]. destruct (H a (or_introl eq_refl)) as [b ->]. cbn [bind].
  destruct IH as [l' ->]; [intros a' Ha; apply H; now right|]. cbn [bind]. eauto.
Qed.
(** two minutes-long sequences of the demo system with random positions *)
Definition two : gen_opts (K := path) (P := unit) (O := unit) :=
  mkGO [usual_config 60 (fun _ => 0); usual_config 60 (fun _ => 1)] None true false None false None [] None None None false None None false.
Definition two_of (g : rng path) : result (list (xy * extras)) :=
  gen builtin_widths phys_ops builtin_table (fun g => builtin_draw g (fun _ => Err EValue)) (fun _ => None) (fun _ _ => None) tt (fun x => x) (fun _ _ => Err EKey) two demo demo g [].
Lemma two_ok g : splits g -> fair g -> exists out, two_of g = Ok out /\ length out = 2%nat.
Proof.
  intros Sg FG.
  assert (POS : forall k, exists s', randomize_positions g k demo = Ok s' /\ wf builtin_widths s' /\ num_links s' = 4%nat /\ has_params s' /\ joints_known builtin_table s' /\ sys_dt s' = 1 / 100 /\ link_types s' = link_types demo).
  { intros k. destruct (C67_positions g FG k demo) as (s' & E & (F1 & F2 & F3 & F4 & F5 & F6 & F7) & _ & M). exists s'. split; [exact E|].
    destruct (positions_kept builtin_widths g k demo s' demo_wf E) as [W1 N1].
    assert (JK : joints_known builtin_table s').
    { intros i typ l A B. rewrite F2 in A. apply C_Xml.Forall2_nth_iff in M. destruct M as [ML M]. destruct (nth_error (links demo) i) as [l0|] eqn:B0; [|apply nth_error_None in B0; assert (nth_error (links s') i <> None) as X by congruence; apply nth_error_Some in X; lia]. destruct (M i l0 l B0 B) as (p & MV & _). destruct MV as (_ & _ & _ & -> & _). exact (demo_known i typ l0 A B0). }
    split; [exact W1|]. split; [exact N1|]. split; [|auto]. intros i typ l A B. now destruct (JK i typ l A B). }
  assert (DRAW : forall k (s' : System R (plink (params unit)) geometry unit) c, wf builtin_widths s' -> num_links s' = 4%nat -> has_params s' -> sys_dt s' = 1 / 100 -> link_types s' = link_types demo -> In c (go_configs two) ->
     exists q, draw_random_q g builtin_widths (builtin_draw g (fun _ => Err EValue)) (fun _ => None) k s' c None = Ok (key_of g k 4, q) /\ length q = (60 * 100)%nat /\ forall row, In row q -> length row = 13%nat).
  { intros k s' c W1 N1 HP DT LT IC. destruct (C65_valid g FG (fun _ => Err EValue) (fun _ => None) s' k c None (60 * 100)) as (q & E & L & H).
    - exact W1.
    - lia.
    - exact HP.
    - rewrite DT. lra.
    - intros typ It. rewrite LT in It. assert (CT : config_ok (fun _ => Err EValue) c /\ c_T c = 60) by (destruct IC as [<-|[<-|[]]]; (split; [apply usual_config_ok; lra|reflexivity])). destruct CT as [CO CT].
      split; [exact CO|]. unfold config_for. rewrite CT, DT. cbn [demo link_types In] in It.
      assert (NF : String.eqb typ "frozen" = false) by (destruct It as [<-|[<-|[<-|[<-|[]]]]]; reflexivity). unfold samples. rewrite NF, mult_INR.
      replace (INR 60) with 60 by (cbn [INR]; lra). replace (INR 100) with 100 by (cbn [INR]; lra). split; lra.
    - rewrite N1 in E. exists q. split; [exact E|]. split; [exact L|]. intros row IR. destruct (In_nth _ _ [] IR) as (j & Hj & <-). rewrite L in Hj. destruct (H j Hj) as [X _].
      unfold q_size in X. rewrite LT in X. change (Ok 13%nat = Ok (length (nth j q []))) in X. now injection X as <-. }
  unfold two_of, gen. unfold sys_noimu. cbn [go_axes go_relpose go_rootincl two orb bind go_configs length seq mapM Nat.add].
  assert (SETUP : forall k, setup_all builtin_widths phys_ops (fun _ _ => None) tt g two k demo = do s <- randomize_positions g (r_split g k 2 1) demo; Ok s).
  { intros k. unfold setup_all, setup_pipe, two. cbn [go_damping go_positions go_params go_setup go_cor app run_setup bind]. now destruct (randomize_positions g (r_split g k 2 1) demo). }
  rewrite !SETUP. destruct (POS (r_split g (r_split g [] 3 1) 2 1)) as (s1 & -> & W1 & N1 & H1 & J1 & D1 & T1). destruct (POS (r_split g (r_split g [] 3 2) 2 1)) as (s2 & -> & W2 & N2 & H2 & J2 & D2 & T2).
  cbn [bind]. unfold pick_rate. cbn [go_rates two bind combine draw_all].
  destruct (DRAW (r_split g [] 3 0) s1 (usual_config 60 (fun _ => 0)) W1 N1 H1 D1 T1 (or_introl eq_refl)) as (q1 & -> & L1 & R1). cbn [bind fst snd].
  destruct (DRAW (key_of g (r_split g [] 3 0) 4) s2 (usual_config 60 (fun _ => 1)) W2 N2 H2 D2 T2 (or_intror (or_introl eq_refl))) as (q2 & -> & L2 & R2). cbn [bind fst snd].
  assert (SS : same_shape [q1; q2] = true).
  { unfold same_shape. assert (R0 : length (nth 0 q1 []) = 13%nat) by (apply R1, nth_In; rewrite L1; lia). rewrite R0. cbn [forallb]. rewrite L1, L2, Nat.eqb_refl.
    assert (X : forall q : list (list R), (forall row, In row q -> length row = 13%nat) -> forallb (fun row => (length row =? 13)%nat) q = true) by (intros q Hq; apply forallb_forall; intros row Hr; rewrite (Hq row Hr); reflexivity).
    rewrite (X q1 R1), (X q2 R2). reflexivity. }
  rewrite SS. cbn [bind]. unfold finalize_pipe. cbn [go_axes go_relpose go_rootincl go_rootfull go_numbers go_quiet go_final go_imu two bind map app combine fst snd mapM].
  assert (CTX : forall k q (s' : System R (plink (params unit)) geometry unit), wf builtin_widths s' -> joints_known builtin_table s' -> link_types s' = link_types demo -> (forall row, In row q -> length row = 13%nat) -> exists r, context builtin_widths builtin_table g [] false k q s' = Ok r).
  { intros k q s' Wx Jx Tx Rx. unfold context. destruct (mapM_exists (fun row => do r <- forward_kinematics_transforms builtin_widths builtin_table s' row; Ok (fst r)) q) as (x & ->).
    - intros row Hr. assert (QS : q_size builtin_widths s' = Ok 13%nat) by (unfold q_size; rewrite Tx; reflexivity).
      destruct (proj1 (C27_total builtin_widths builtin_table s' row 13 Wx Jx QS) (Rx row Hr)) as (xs & s3 & ->). cbn [bind]. eauto.
    - cbn [bind run_stages foldM]. eauto. }
  destruct (CTX (r_split g (key_of g (key_of g (r_split g [] 3 0) 4) 4) 2 0) q1 s1 W1 J1 T1 R1) as (r1 & ->). destruct (CTX (r_split g (key_of g (key_of g (r_split g [] 3 0) 4) 4) 2 1) q2 s2 W2 J2 T2 R2) as (r2 & ->). cbn [bind].
  eexists. split; reflexivity.
Qed.
(** Whatever else is drawn differently, both sequences of the demo stay the same if their own keys draw the same. *)
Example C66_nonvacuous : exists (own : nat -> stream) (shared : stream), apart own /\ (forall k, ~ shared k) /\ forall A out out',
  two_of half = Ok out -> two_of (other A) = Ok out' -> length out = 2%nat /\
  forall i, same_on half (other A) (own i) -> nth_error out i = nth_error out' i.
Proof.
  destruct (C66_sequences (P := unit) (O := unit) builtin_widths phys_ops builtin_table (fun g => builtin_draw g (fun _ => Err EValue)) (fun _ => None) (fun _ _ => None) tt (fun x => x) (fun _ _ => Err EKey)) with (o := two) (sys_ml := demo) (s := demo) (key := @nil (nat * nat))
    as (own & shared & AP & _ & SE & _ & _ & H).
  - apply C66_builtin_draws.
  - intros g g' typ _ _. exact Logic.I.
  - apply phys_laws.
  - split; discriminate.
  - intros f g k s s' E. discriminate.
  - apply demo_wf.
  - discriminate.
  - exists own, shared. split; [exact AP|]. split; [exact (SE eq_refl)|]. intros A out out' E E'.
    destruct (H half (other A) out out' half_splits (other_splits A) E E') as [L X]. split; [exact L|]. intros i S. apply X; [exact S|]. intros k Hk. destruct (SE eq_refl k Hk).
Qed.

(** ** Sensors *)
Definition turns_of (k : path) (m : nat) : path := Nat.iter m (cons (2, 0)%nat) k.
Lemma turns_of_S k m : turns_of k (S m) = (2, 0)%nat :: turns_of k m. Proof. reflexivity. Qed.
Lemma turns_of_first k m : turns_of ((2, 0)%nat :: k) m = turns_of k (S m).
Proof. induction m as [|m IH]; [reflexivity|]. rewrite turns_of_S, IH. reflexivity. Qed.
Lemma turns_of_plus k a b : turns_of (turns_of k a) b = turns_of k (a + b).
Proof. induction b as [|b IH]; [now rewrite Nat.add_0_r|]. rewrite turns_of_S, IH, Nat.add_succ_r. reflexivity. Qed.
Lemma turns_of_below k m : below k (turns_of k m).
Proof. induction m as [|m IH]; [apply below_refl|]. rewrite turns_of_S. auto with keys. Qed.
Lemma turns_apart k : apart (fun m => under ((2, 1)%nat :: turns_of k m)).
Proof.
  assert (X : forall a b p, (a < b)%nat -> under ((2, 1)%nat :: turns_of k a) p -> under ((2, 1)%nat :: turns_of k b) p -> False).
  { intros a b p L A B. apply stream_at in A. replace b with (S a + (b - S a))%nat in B by lia. rewrite <- turns_of_plus, turns_of_S in B.
    assert (B' : under ((2, 0)%nat :: turns_of k a) p). { eapply below_trans; [|exact B]. apply below_cons, turns_of_below. }
    apply stream_at in B'. congruence. }
  intros i j NE p [A B]. destruct (Nat.lt_total i j) as [L|[->|L]]; [eauto|contradiction|eauto].
Qed.

Section Sensors.
Context {P O : Type}.
Notation rsys := (System R (plink (params P)) geometry O).
Variable W : widths.
Variable ops : parse_ops R (plink (params P)) geometry.
Variable gauss : R -> R.
Definition zeros_of (x : traj) : value := let z := ASeries (repeat vzero (length (tr_rows x))) in VDict [("acc"%string, z); ("gyr"%string, z)].
(** what the loop over the segments does with one segment *)
Definition segment_data (g : rng path) (kw : imu_kwargs) (x : traj) (s : rsys) (att : list (string * string)) (k : path) (seg : string) : result value :=
  match dget String.eqb att seg with
  | Some imu_name => do i <- name_to_idx s imu_name; do m <- imu_keyed g gauss ((2, 1)%nat :: k) kw (link_traj x i) (grav3 (gravity s)) (sys_dt s); Ok (VDict (map (fun sv => (fst sv, ASeries (snd sv))) m))
  | None => Ok (zeros_of x)
  end.
Definition sensed (att : list (string * string)) (seg : string) : nat := if dmem String.eqb att seg then 1 else 0.
Lemma imu_loop_spec g (Sg : splits g) kw x (s : rsys) att segs : forall k X X', NoDup segs -> (forall n, In n segs -> ~ In n (map fst X)) -> imu_loop gauss g kw x s att k segs X = Ok X' ->
  exists vs, X' = X ++ combine segs vs /\ length vs = length segs /\
  forall i seg, nth_error segs i = Some seg -> exists v, nth_error vs i = Some v /\ segment_data g kw x s att (turns_of k (list_sum (map (sensed att) (firstn i segs)))) seg = Ok v.
Proof.
  induction segs as [|seg r IH]; intros k X X' ND NI E; cbn [imu_loop] in E.
  - injection E as <-. exists []. split; [now rewrite app_nil_r|]. split; [reflexivity|]. intros [|i] seg H; discriminate.
  - apply NoDup_cons_iff in ND. destruct ND as [NR ND]. assert (AP : forall v, dset String.eqb X seg v = X ++ [(seg, v)]).
    { intros v. assert (NS : ~ In seg (map fst X)) by (apply NI; now left). clear - NS. induction X as [|[n u] X IHX]; [reflexivity|]. cbn [dset map In fst] in *.
      destruct (String.eqb_spec n seg); [subst; destruct NS; now left|]. destruct (String.eqb_spec seg n); [subst; destruct NS; now left|]. cbn [app]. f_equal. apply IHX. tauto. }
    assert (STEP : forall v k', segment_data g kw x s att k seg = Ok v -> k' = turns_of k (sensed att seg) -> imu_loop gauss g kw x s att k' r (X ++ [(seg, v)]) = Ok X' ->
      exists vs, X' = X ++ combine (seg :: r) vs /\ length vs = length (seg :: r) /\
      forall i sg, nth_error (seg :: r) i = Some sg -> exists v, nth_error vs i = Some v /\ segment_data g kw x s att (turns_of k (list_sum (map (sensed att) (firstn i (seg :: r))))) sg = Ok v).
    { intros v k' SD -> E'. assert (NI' : forall n, In n r -> ~ In n (map fst (X ++ [(seg, v)]))).
      { intros n Hn. rewrite map_app, in_app_iff. intros [Q|[<-|[]]]; [|contradiction]. apply (NI n); [now right|exact Q]. }
      destruct (IH _ _ _ ND NI' E') as (vs & -> & L & H).
      exists (v :: vs). split; [cbn [combine]; now rewrite <- app_assoc|]. split; [cbn [length]; now rewrite L|]. intros [|i] sg Hi; cbn [nth_error firstn map] in Hi |- *.
      - injection Hi as <-. exists v. split; [reflexivity|exact SD].
      - destruct (H i sg Hi) as (u & U1 & U2). exists u. split; [exact U1|]. rewrite turns_of_plus in U2. unfold list_sum in *. cbn [fold_right]. exact U2. }
    assert (SEG : segment_data g kw x s att k seg = segment_data g kw x s att k seg) by reflexivity. unfold segment_data in SEG at 2. unfold sensed, dmem in STEP.
    destruct (dget String.eqb att seg) as [imu|].
    + apply bind_Ok in E. destruct E as (i & E1 & E). apply bind_Ok in E. destruct E as (m & E2 & E). rewrite AP in E. rewrite !Sg in E, E2.
      rewrite E1 in SEG. cbn [bind] in SEG. rewrite E2 in SEG. cbn [bind] in SEG. eapply STEP; [exact SEG| |exact E]. reflexivity.
    + rewrite AP in E. eapply STEP; [exact SEG| |exact E]. reflexivity.
Qed.
Lemma dget_zip {V} (ks : list string) : NoDup ks -> forall (us : list V) i k, length us = length ks -> nth_error ks i = Some k -> dget String.eqb (combine ks us) k = nth_error us i.
Proof.
  induction ks as [|a r IH]; intros ND [|u us] [|i] k L Hi; try discriminate; cbn [combine dget nth_error] in *.
  - injection Hi as ->. now rewrite String.eqb_refl.
  - apply NoDup_cons_iff in ND. destruct ND as [NA ND]. destruct (String.eqb_spec k a) as [->|NE]; [destruct NA; eapply nth_error_In; eauto|]. apply IH; auto.
Qed.
Lemma count_grows att segs i j seg : nth_error segs i = Some seg -> sensed att seg = 1%nat -> (i < j)%nat ->
  (list_sum (map (sensed att) (firstn i segs)) < list_sum (map (sensed att) (firstn j segs)))%nat.
Proof.
  revert i j. induction segs as [|a r IH]; intros [|i] [|j] E S L; try discriminate; try lia; cbn [nth_error firstn map] in *.
  - injection E as ->. unfold list_sum. cbn [fold_right]. lia.
  - specialize (IH i j E S ltac:(lia)). unfold list_sum in *. cbn [fold_right]. lia.
Qed.
Lemma noimu_names (LAWS : ops_laws ops) (s s0 : rsys) att : parsed W ops s -> make_sys_noimu W ops s None = Ok (s0, att) -> NoDup (link_names s0).
Proof.
  intros PD H. unfold make_sys_noimu in H. cbn zeta in H. apply bind_Ok in H. destruct H as (att0 & _ & H). apply bind_Ok in H. destruct H as (s1 & H1 & H). injection H as <- <-.
  destruct (delete_list_restricts W ops LAWS _ s _ true PD H1) as (keep & PD' & _). apply (wf_unique _ _ (pd_wf _ _ _ PD')).
Qed.
(** Every segment's IMU has its own random stream. *)
Theorem C66_sensors (LAWS : ops_laws ops) key x (s : rsys) kw : parsed W ops s ->
  exists own : string -> stream, apart own /\ (forall seg p, own seg p -> below key p) /\
  forall g g' X X', splits g -> splits g' -> imu_data W ops gauss g key x s kw = Ok X -> imu_data W ops gauss g' key x s kw = Ok X' ->
  map fst X' = map fst X /\ forall seg, same_on g g' (own seg) -> dget String.eqb X seg = dget String.eqb X' seg.
Proof.
  intros PD. unfold imu_data. destruct (make_sys_noimu W ops s None) as [[s0 att0]|] eqn:EN; cbn [bind fst snd].
  2: { exists (fun _ _ => False). split; [intros i j _ p [[] _]|]. split; [intros seg p []|]. discriminate. }
  pose proof (noimu_names LAWS s s0 att0 PD EN) as ND. set (segs := link_names s0) in *.
  set (att := fold_left (fun d kv => dset String.eqb d (snd kv) (fst kv)) att0 []).
  exists (fun seg p => exists i, nth_error segs i = Some seg /\ sensed att seg = 1%nat /\ under ((2, 1)%nat :: turns_of key (list_sum (map (sensed att) (firstn i segs)))) p).
  split; [|split].
  - intros a b NE p [(i & I1 & I2 & I3) (j & J1 & J2 & J3)].
    assert (NIJ : i <> j) by (intros ->; congruence).
    apply (turns_apart key (list_sum (map (sensed att) (firstn i segs))) (list_sum (map (sensed att) (firstn j segs)))) with (k := p); [|auto].
    destruct (Nat.lt_total i j) as [L|[L|L]]; [pose proof (count_grows att segs i j a I1 I2 L)|contradiction|pose proof (count_grows att segs j i b J1 J2 L)]; lia.
  - intros seg p (i & _ & _ & H). eapply below_trans; [|exact H]. apply below_cons, turns_of_below.
  - intros g g' X X' Sg Sg' E E'.
    destruct (imu_loop_spec g Sg kw x s att segs key [] X ND (fun _ _ H => H) E) as (vs & -> & L & H).
    destruct (imu_loop_spec g' Sg' kw x s att segs key [] X' ND (fun _ _ H => H) E') as (vs' & -> & L' & H'). cbn [app].
    assert (MF : forall us : list value, length us = length segs -> map fst (combine segs us) = segs).
    { intros us. clear. revert us. induction segs as [|a r IH]; intros [|u us] L; try discriminate; [reflexivity|]. cbn [combine map fst]. f_equal. apply IH. now injection L. }
    split; [now rewrite !MF|]. intros seg SO.
    assert (DG : forall us : list value, length us = length segs -> forall i, nth_error segs i = Some seg -> dget String.eqb (combine segs us) seg = nth_error us i).
    { intros us Lu i Hi. now apply dget_zip. }
    destruct (in_dec string_dec seg segs) as [IN|NI].
    + apply In_nth_error in IN. destruct IN as (i & Hi). rewrite (DG vs L i Hi), (DG vs' L' i Hi). destruct (H i seg Hi) as (v & -> & Ev). destruct (H' i seg Hi) as (v' & -> & Ev').
      enough (SE : segment_data g kw x s att (turns_of key (list_sum (map (sensed att) (firstn i segs)))) seg = segment_data g' kw x s att (turns_of key (list_sum (map (sensed att) (firstn i segs)))) seg) by congruence.
      unfold segment_data. assert (SS : forall imu, dget String.eqb att seg = Some imu -> sensed att seg = 1%nat) by (intros imu Di; unfold sensed, dmem; now rewrite Di).
      destruct (dget String.eqb att seg) as [imu|]; [|reflexivity]. destruct (name_to_idx s imu); [|reflexivity]. cbn [bind].
      rewrite (imu_keyed_eq g g' Sg Sg'); [reflexivity|]. intros p Hp. apply SO. exists i. split; [exact Hi|]. split; [now apply (SS imu)|exact Hp].
    + assert (DN : forall us : list value, dget String.eqb (combine segs us) seg = None).
      { clear - NI. intros us. revert us. induction segs as [|a r IH]; intros [|u us]; try reflexivity. cbn [combine dget]. destruct (String.eqb_spec seg a); [subst; destruct NI; now left|]. apply IH. intros Q. apply NI. now right. }
      now rewrite !DN.
Qed.
End Sensors.
