(** * The pieces of the generator draw only with their own keys. *)
From Coq Require Import Reals Lra Lia ZArith Bool String FunctionalExtensionality List.
From Verif Require Import Prelude M_Sys M_Math M_Geom M_Joint M_Kin M_Random M_Draw M_Setup M_Compose M_Target M_Sens M_Rcmg S_Stream P_Stream.
Import ListNotations.
Local Open Scope R_scope.

Section Pieces.
Variables g g' : rng path.
Hypotheses (Sg : splits g) (Sg' : splits g').
Notation same k := (same_on g g' (under k)).
Lemma same_split k n j : same k -> same ((n, j) :: k).
Proof. intros H. apply (same_under _ _ k); [exact H|]. auto with keys. Qed.
Lemma same_here k : same k -> same_at g g' k.
Proof. intros H. apply H. apply below_refl. Qed.

(** ** Randomisation of the system *)
Section Setup.
Context {P G O : Type}.
Notation rsys := (System R (plink (params P)) G O).
Lemma positions_eq (ls : list (plink (params P))) : forall k, same k -> positions_loop g k ls = positions_loop g' k ls.
Proof.
  induction ls as [|l ls IH]; intros k H; cbn [positions_loop]; [reflexivity|]. unfold draw_pos_uniform. rewrite !Sg, !Sg'.
  rewrite !(uniform_eq g g') by (apply H; unfold under; auto with keys). rewrite IH by now apply same_split. reflexivity.
Qed.
Lemma log_uniforms_eq k n lo hi : same k -> log_uniforms g k n lo hi = log_uniforms g' k n lo hi.
Proof. intros H. unfold log_uniforms. rewrite (uniforms_eq g g') by now apply same_here. reflexivity. Qed.
Lemma nonrigid_eq k : same k -> stif_damp_nonrigid g k = stif_damp_nonrigid g' k.
Proof. intros H. unfold stif_damp_nonrigid. rewrite !Sg, !Sg'. rewrite !log_uniforms_eq by now apply same_split. reflexivity. Qed.
Lemma bernoulli_eq k p : same k -> bernoulli g k p = bernoulli g' k p.
Proof. intros H. unfold bernoulli. now rewrite (sa_unif _ _ _ (same_here k H)). Qed.
Lemma damp_loop_eq o m l : forall k a b c d, same k -> foldM (damp_step g o m) (k, a, b, c, d) l = foldM (damp_step g' o m) (k, a, b, c, d) l.
Proof.
  induction l as [|n l IH]; intros k a b c d H; cbn [foldM]; [reflexivity|].
  unfold damp_step at 1 3. rewrite !Sg, !Sg'. rewrite nonrigid_eq, bernoulli_eq by now apply same_split.
  destruct (dgetE String.eqb m (M_Artifact.imu_reference_link_name n)); [|reflexivity]. cbn [bind]. destruct (dgetE String.eqb m n); [|reflexivity]. cbn [bind]. cbv zeta.
  match goal with |- bind (bind ?X _) _ = _ => destruct X as [((isr & trig) & (st & dd))|]; [|reflexivity] end. cbn [bind].
  destruct (set_at_all c _ st); [|reflexivity]. cbn [bind]. destruct (set_at_all d _ dd); [|reflexivity]. cbn [bind]. apply IH. now apply same_split.
Qed.
Lemma damping_eq W o k (s : rsys) : same k -> randomize_damping_stiffness g W o k s = randomize_damping_stiffness g' W o k s.
Proof.
  intros H. unfold randomize_damping_stiffness. rewrite !Sg, !Sg'. rewrite bernoulli_eq by now apply same_split.
  destruct (assert_ (rle 0 (do_prob o) && rle (do_prob o) 1)); [|reflexivity]. cbn [bind].
  destruct (assert_ (if Req_EM_T (do_prob o) 1 then false else true)); [|reflexivity]. cbn [bind].
  destruct (if Req_EM_T (do_prob o) 0 then _ else _); [|reflexivity]. cbn [bind]. destruct (idx_map_d W s) as [m|]; [|reflexivity]. cbn [bind]. cbv zeta.
  rewrite damp_loop_eq by now apply same_split. reflexivity.
Qed.
Lemma randomize_positions_eq k (s : rsys) : same k -> randomize_positions g k s = randomize_positions g' k s.
Proof. intros H. unfold randomize_positions. now rewrite positions_eq. Qed.

(** the registered functions that draw joint parameters, with either generator *)
Definition like_inits (i i' : string -> option (option (path -> P))) (k : path) : Prop :=
  forall typ, match i typ, i' typ with
              | None, None | Some None, Some None => True
              | Some (Some f), Some (Some f') => forall k', below k k' -> f k' = f' k'
              | _, _ => False end.
Lemma init_fns_eq i i' k types : like_inits i i' k -> forall acc acc', Forall2 (fun a b => fst a = fst b /\ forall k', below k k' -> snd a k' = snd b k') acc acc' ->
  match init_fns i types acc, init_fns i' types acc' with
  | Ok l, Ok l' => Forall2 (fun a b => fst a = fst b /\ forall k', below k k' -> snd a k' = snd b k') l l'
  | Err e, Err e' => e = e' | _, _ => False end.
Proof.
  intros L. induction types as [|typ r IH]; intros acc acc' F; cbn [init_fns]; [exact F|].
  assert (M : dmem String.eqb acc typ = dmem String.eqb acc' typ).
  { clear -F. unfold dmem. induction F as [|[a b] [a' b'] ? ? [E _] F IH]; [reflexivity|]. cbn in E |- *. subst a'. destruct (String.eqb typ a); [reflexivity|exact IH]. }
  rewrite <- M. destruct (dmem String.eqb acc typ); [now apply IH|]. specialize (L typ).
  destruct (i typ) as [[f|]|], (i' typ) as [[f'|]|]; try contradiction; [|now apply IH|reflexivity].
  apply IH. apply Forall2_app; [exact F|]. repeat constructor; auto.
Qed.
Lemma init_loop_eq n i fns fns' : forall k0 k, below k0 k -> Forall2 (fun a b => fst a = fst b /\ forall k', below k0 k' -> snd a k' = snd b k') fns fns' ->
  init_loop g k n (P := P) fns i = init_loop g' k n fns' i.
Proof.
  intros k0 k B F. revert k B. induction F as [|[a f] [a' f'] ? ? [E EF] F IH]; intros k B; cbn [init_loop]; [reflexivity|]. cbn in E, EF. subst a'.
  rewrite !Sg, !Sg'. f_equal; [|apply IH; auto with keys]. rewrite EF; [reflexivity|]. auto with keys.
Qed.
Lemma init_params_eq i i' pd k (s : rsys) : like_inits i i' k -> init_joint_params g i pd k s = init_joint_params g' i' pd k s.
Proof.
  intros L. unfold init_joint_params. pose proof (init_fns_eq i i' k (link_types s) L [] [] (Forall2_nil _)) as F.
  destruct (init_fns i (link_types s) []) as [fns|], (init_fns i' (link_types s) []) as [fns'|]; try contradiction; [|now subst]. cbn [bind].
  destruct (num_links s =? length (links s))%nat; [|reflexivity]. cbn [bind]. f_equal. unfold with_links. f_equal. apply map_ext. intros [j l]. cbv zeta. cbn [fst snd].
  rewrite (init_loop_eq (num_links s) j fns fns' k k (below_refl k) F). reflexivity.
Qed.
End Setup.

(** ** Noise *)
Section Noise.
Variable gauss : R -> R.
Lemma normals_eq k n : same k -> normals g gauss k n = normals g' gauss k n.
Proof. intros H. unfold normals. now rewrite (sa_units _ _ _ (same_here k H)). Qed.
Lemma quat_random_eq k m : same k -> quat_random g gauss k m = quat_random g' gauss k m.
Proof. intros H. unfold quat_random. now rewrite normals_eq. Qed.
Lemma quats_random_eq k n m : same k -> quats_random g gauss k n m = quats_random g' gauss k n m.
Proof. intros H. unfold quats_random. now rewrite normals_eq. Qed.
Lemma noise_key_eq k j : noise_key g k j = noise_key g' k j /\ below k (noise_key g k j).
Proof.
  induction j as [|j [IH B]]; [split; [reflexivity|apply below_refl]|].
  change (noise_key g k (S j)) with (r_split g (noise_key g k j) 3 0). change (noise_key g' k (S j)) with (r_split g' (noise_key g' k j) 3 0).
  rewrite Sg, Sg', <- IH. auto with keys.
Qed.
Lemma noise_draw_eq k n j x : same k -> noise_draw g gauss k n j x = noise_draw g' gauss k n j x.
Proof.
  intros H. unfold noise_draw. destruct (noise_key_eq k j) as [E B]. rewrite <- E, !Sg, !Sg'.
  assert (H' : same (noise_key g k j)) by now apply (same_under _ _ k).
  rewrite normals_eq by now apply same_split. rewrite (uniforms_eq g g') by (apply H'; unfold under; auto with keys). reflexivity.
Qed.
Lemma magvec_eq k : same k -> draw_random_magvec g k = draw_random_magvec g' k.
Proof. intros H. unfold draw_random_magvec. rewrite !Sg, !Sg', !(uniform_eq g g') by (apply H; unfold under; auto with keys). reflexivity. Qed.
Lemma imu_keyed_eq k kw xs gr dt : same k -> imu_keyed g gauss k kw xs gr dt = imu_keyed g' gauss k kw xs gr dt.
Proof.
  intros H. unfold imu_keyed. cbv zeta. rewrite !Sg, !Sg'.
  assert (E : forall k2, same k2 -> (fun sensor => noise_draw g gauss k2 (length xs) (sensor_number sensor) sensor) = (fun sensor => noise_draw g' gauss k2 (length xs) (sensor_number sensor) sensor)).
  { intros k2 H2. apply functional_extensionality. intros x. now apply noise_draw_eq. }
  destruct (k_s2s kw); [rewrite quat_random_eq by now apply same_split|]; (destruct (k_has_mag kw); [destruct (k_magvec kw)|]); rewrite ?magvec_eq by (repeat apply same_split; exact H);
    rewrite E by (repeat apply same_split; exact H); reflexivity.
Qed.
End Noise.
End Pieces.

(** ** Stages *)
Section Stages.
Context {P O : Type}.
Notation rsys := (System R (plink (params P)) geometry O).
Variable W : widths.
Variable ops : parse_ops R (plink (params P)) geometry.
Variable gauss : R -> R.
Variable rr_axis : string -> params P -> result vec3.
Notation stage := (stage (K := path) (P := P) (O := O)).

Definition key_in (e : extras (K := path) (P := P) (O := O)) : path := let '(key, _, _, _) := e in key.
(** A stage draws only below its key, and hands on a key below it. *)
Definition local_stage (f : stage) : Prop := forall g g' v e, splits g -> splits g' -> same_on g g' (under (key_in e)) ->
  f g v e = f g' v e /\ forall v' e', f g v e = Ok (v', e') -> below (key_in e) (key_in e').

Lemma quiet_local f : local_stage (quiet_stage f).
Proof.
  intros g g' v (((k & q) & x) & s) Sg Sg' H. split; [reflexivity|]. intros v' e' E. unfold quiet_stage in E. apply bind_Ok in E. destruct E as (((q' & x') & s') & _ & E).
  injection E as <- <-. apply below_refl.
Qed.
Lemma target_local f : local_stage (target_stage f).
Proof.
  intros g g' v (((k & q) & x) & s) Sg Sg' H. split; [reflexivity|]. intros v' e' E. unfold target_stage in E. apply bind_Ok in E. destruct E as (t & _ & E). apply bind_Ok in E. destruct E as (y & _ & E).
  injection E as <- <-. apply below_refl.
Qed.
Lemma number_local s0 : local_stage (number_stage s0).
Proof.
  intros g g' v e Sg Sg' H. split; [reflexivity|]. intros v' e' E. unfold number_stage in E. apply bind_Ok in E. destruct E as (t & _ & E). apply bind_Ok in E. destruct E as (y & _ & E).
  injection E as <- <-. apply below_refl.
Qed.
Lemma finalize_local f : (forall q x s, local (fun g k (_ : unit) => f g k q x s)) -> local_stage (finalize_stage f).
Proof.
  intros L g g' v (((k & q) & x) & s) Sg Sg' H. unfold finalize_stage. rewrite !Sg, !Sg'. cbn [key_in] in *. split.
  - rewrite (L q x s g g' _ tt Sg Sg'); [reflexivity|]. now apply same_split.
  - intros v' e' E. apply bind_Ok in E. destruct E as (t & _ & E). apply bind_Ok in E. destruct E as (y & _ & E). injection E as <- <-. cbn. auto with keys.
Qed.
Lemma imu_loop_eq g g' (Sg : splits g) (Sg' : splits g') kw x (s : rsys) att segs : forall k X, same_on g g' (under k) ->
  imu_loop gauss g kw x s att k segs X = imu_loop gauss g' kw x s att k segs X.
Proof.
  induction segs as [|seg r IH]; intros k X H; cbn [imu_loop]; [reflexivity|]. destruct (dget String.eqb att seg).
  - destruct (name_to_idx s s0); [|reflexivity]. cbn [bind]. rewrite !Sg, !Sg', (imu_keyed_eq g g' Sg Sg') by now apply same_split.
    destruct (imu_keyed g' gauss _ kw _ _ _); [|reflexivity]. cbn [bind]. apply IH. now apply same_split.
  - now apply IH.
Qed.
Lemma imu_local kw : local_stage (imu_stage W ops gauss kw).
Proof.
  intros g g' v (((k & q) & x) & s) Sg Sg' H. unfold imu_stage. rewrite !Sg, !Sg'. cbn [key_in] in *. split.
  - unfold imu_data. destruct (make_sys_noimu W ops s None); [|reflexivity]. cbn [bind]. rewrite (imu_loop_eq g g' Sg Sg') by now apply same_split. reflexivity.
  - intros v' e' E. apply bind_Ok in E. destruct E as (t & _ & E). apply bind_Ok in E. destruct E as (y & _ & E). injection E as <- <-. cbn. auto with keys.
Qed.
Lemma noisy_axes_eq g g' (Sg : splits g) (Sg' : splits g') N X : forall k, same_on g g' (under k) ->
  noisy_axes gauss g k N X = noisy_axes gauss g' k N X /\ below k (fst (noisy_axes gauss g k N X)).
Proof.
  induction X as [|[n a] r IH]; intros k H; cbn [noisy_axes]; [auto with keys|]. rewrite !Sg, !Sg'.
  rewrite (quat_random_eq g g'), (quats_random_eq g g') by now apply same_split.
  destruct (IH ((3, 0)%nat :: k)) as [E B]; [now apply same_split|]. rewrite <- E. destruct (noisy_axes gauss g _ N r) as [k' r']. split; [reflexivity|]. cbn [fst] in *.
  eapply below_trans; [|exact B]. auto with keys.
Qed.
Lemma flip_axes_eq g g' (Sg : splits g) (Sg' : splits g') fl N ps : forall X k, same_on g g' (under k) -> flip_axes g k fl N ps X = flip_axes g' k fl N ps X.
Proof.
  induction ps as [|p ps IH]; intros [|[n a] r] k H; cbn [flip_axes]; try reflexivity. destruct (Z.eqb p (-1)); [now rewrite IH|]. destruct fl; [|now rewrite IH].
  rewrite !Sg, !Sg'. rewrite (sa_int _ _ _ (H ((2, 1)%nat :: k) ltac:(unfold under; auto with keys))). rewrite IH by now apply same_split. reflexivity.
Qed.
Lemma axes_local s0 kw : local_stage (axes_stage W gauss rr_axis s0 kw).
Proof.
  intros g g' v (((k & q) & x) & s) Sg Sg' H. unfold axes_stage. rewrite !Sg, !Sg'. cbn [key_in] in *. split.
  - unfold joint_axes. cbv zeta. destruct (if a_from_sys kw then _ else _) as [X|]; [|reflexivity]. cbn [bind].
    assert (H1 : same_on g g' (under ((2, 1)%nat :: k))) by now apply same_split.
    destruct (a_noisy kw).
    + destruct (noisy_axes_eq g g' Sg Sg' (length (tr_rows x)) X _ H1) as [E B]. rewrite <- E. destruct (noisy_axes gauss g _ _ X) as [k' X']. cbn [fst] in B.
      rewrite (flip_axes_eq g g' Sg Sg'); [reflexivity|]. eapply same_under; eassumption.
    + rewrite (flip_axes_eq g g' Sg Sg'); [reflexivity|exact H1].
  - intros v' e' E. apply bind_Ok in E. destruct E as (t & _ & E). apply bind_Ok in E. destruct E as (y & _ & E). injection E as <- <-. cbn. auto with keys.
Qed.
Lemma run_stages_eq g g' (Sg : splits g) (Sg' : splits g') fs : Forall local_stage fs -> forall v e, same_on g g' (under (key_in e)) ->
  run_stages g fs v e = run_stages g' fs v e.
Proof.
  intros F. unfold run_stages. induction F as [|f fs L F IH]; intros v e H; cbn [foldM]; [reflexivity|]. cbn [fst snd].
  destruct (L g g' v e Sg Sg' H) as [E B]. rewrite <- E. destruct (f g v e) as [[v' e']|]; [|reflexivity]. cbn [bind].
  apply IH. eapply same_under; [exact H|]. now apply (B v').
Qed.
End Stages.
