(** * The random functions use only their own keys. *)
From Coq Require Import Reals Lra Lia ZArith Bool String FunctionalExtensionality List.
From Verif Require Import Prelude M_Sys M_Math M_Geom M_Joint M_Kin M_Random M_Draw S_Stream.
Import ListNotations.
Local Open Scope R_scope.

Lemma below_refl k : below k k.
Proof. now exists []. Qed.
Lemma below_cons k k' x : below k k' -> below k (x :: k').
Proof. intros (p & ->). now exists (x :: p). Qed.
Lemma below_trans a b c : below a b -> below b c -> below a c.
Proof. intros (p & ->) (p' & ->). exists (p' ++ p). now rewrite app_assoc. Qed.
#[export] Hint Resolve below_refl below_cons : keys.

(** Two keys below which a common key lies: one is below the other. *)
Lemma below_comparable a b k : below a k -> below b k -> below a b \/ below b a.
Proof.
  intros (p & ->) (p' & E). revert p' E. induction p as [|x p IH]; intros p' E.
  - right. now exists p'.
  - destruct p' as [|y p']; cbn in E.
    + left. exists (x :: p). now subst.
    + injection E as _ E. now apply (IH p').
Qed.
Lemma below_length a b : below a b -> (length a <= length b)%nat.
Proof. intros (p & ->). rewrite app_length. lia. Qed.
Lemma below_tail a x k : below a (x :: k) -> a = x :: k \/ below a k.
Proof. intros ([|y p] & E); [now left|]. injection E as _ E. right. exists p. now subst. Qed.

Lemma same_on_sub g g' (A B : stream) : (forall k, B k -> A k) -> same_on g g' A -> same_on g g' B.
Proof. intros S H k Hk. apply H, S, Hk. Qed.
Lemma same_under g g' k k' : same_on g g' (under k) -> below k k' -> same_on g g' (under k').
Proof. intros H B. apply (same_on_sub _ _ (under k)); [|exact H]. intros x Hx. eapply below_trans; eassumption. Qed.

Section Local.
Variables g g' : rng path.
Hypotheses (Sg : splits g) (Sg' : splits g').
Variable parse_float : string -> result R.

Lemma split_eq k n j : r_split g k n j = r_split g' k n j.
Proof. now rewrite Sg, Sg'. Qed.

Lemma uniform_eq k lo hi : same_at g g' k -> uniform g k lo hi = uniform g' k lo hi.
Proof. intros [H _ _ _ _]. unfold uniform. now rewrite H. Qed.
Lemma uniforms_eq k n lo hi : same_at g g' k -> uniforms g k n lo hi = uniforms g' k n lo hi.
Proof. intros [_ H _ _ _]. unfold uniforms. now rewrite H. Qed.

Lemma cdf_local bmin bmax K : same_on g g' (under K) ->
  match generate_cdf g bmin bmax, generate_cdf g' bmin bmax with
  | Ok f, Ok f' => forall k, below K k -> f k = f' k | Err e, Err e' => e = e' | _, _ => False end.
Proof.
  intros H. unfold generate_cdf. destruct bmax as [m|].
  - destruct (bmin <=? m)%nat; cbn [assert_ bind]; [|reflexivity].
    intros k B. cbv zeta. rewrite !Sg, !Sg'.
    assert (A1 : same_at g g' ((2, 1)%nat :: k)) by (apply H; unfold under; auto with keys).
    assert (A2 : same_at g g' ((2, 1)%nat :: (2, 0)%nat :: k)) by (apply H; unfold under; auto with keys).
    assert (A3 : same_at g g' ((2, 0)%nat :: (2, 0)%nat :: k)) by (apply H; unfold under; auto with keys).
    rewrite (sa_int _ _ _ A1), (sa_perm _ _ _ A2), (uniforms_eq _ _ _ _ A3). reflexivity.
  - intros k B. rewrite (uniforms_eq k); [reflexivity|]. apply H. exact B.
Qed.

Lemma read_local rnd tab K k ts : same_on g g' (under K) -> below K k -> read_table g rnd tab k ts = read_table g' rnd tab k ts.
Proof.
  intros H B. unfold read_table. destruct rnd as [((bmin & bmax) & m)|]; [|reflexivity].
  unfold interpolate. pose proof (cdf_local bmin bmax K H) as C.
  destruct (generate_cdf g bmin bmax) as [f|e], (generate_cdf g' bmin bmax) as [f'|e']; try contradiction; [|now subst].
  cbn [bind]. destruct (match bmax with None => bmin | Some m0 => m0 end =? 0)%nat; [reflexivity|]. cbn [bind].
  destruct (two_point_interp m) as [two|]; [|reflexivity]. cbn [bind]. f_equal. apply map_ext. intros x. cbv zeta.
  rewrite split_eq. rewrite C; [reflexivity|]. rewrite Sg'. auto with keys.
Qed.

Lemma next_phi_local rom p l u dm dM prev K k dt : same_on g g' (under K) -> below K k ->
  next_phi g rom p l u dm dM prev k dt = next_phi g' rom p l u dm dM prev k dt.
Proof.
  intros H B. unfold next_phi. cbv zeta. rewrite !Sg, !Sg'.
  rewrite (sa_unif _ _ ((2, 1)%nat :: k)) by (apply H; unfold under; auto with keys).
  destruct (if rom then _ else _) as [a b].
  apply uniform_eq, H. unfold under. auto with keys.
Qed.

Lemma while_local {A} (cond : A -> bool) (body body' : A -> A) (inv : A -> Prop) :
  (forall x, inv x -> body x = body' x /\ inv (body x)) ->
  forall n x, inv x -> while n cond body x = while n cond body' x /\ (forall y, while n cond body x = Ok y -> inv y).
Proof.
  intros H. induction n as [|n IH]; intros x Hx; cbn [while].
  - destruct (cond x); (split; [reflexivity|]); intros y E; congruence.
  - destruct (cond x); [|split; [reflexivity|intros y E; congruence]].
    destruct (H x Hx) as [E1 I1]. rewrite <- E1. now apply IH.
Qed.

Lemma resolve_local a A0 t prev KT KA kt ka : same_on g g' (under KT) -> same_on g g' (under KA) -> below KT kt -> below KA ka ->
  resolve_range_of_motion g parse_float a A0 t prev kt ka = resolve_range_of_motion g' parse_float a A0 t prev kt ka.
Proof.
  intros HT HA BT BA. unfold resolve_range_of_motion. destruct (prob_up parse_float _) as [prob|]; [|reflexivity]. cbn [bind].
  destruct (while_local (rom_cond a t prev) (rom_body g a (prob prev) A0 t prev) (rom_body g' a (prob prev) A0 t prev)
    (fun v => let '(k1, k2, _, _, _) := v in below KT k1 /\ below KA k2)) with (n := S (S (a_max_iter a))) (x := (kt, ka, 1, prev, 0%nat)) as [E _].
  - intros [[[[k1 k2] d] ph] i] [B1 B2]. unfold rom_body. rewrite !Sg, !Sg'. split; [|split; auto with keys].
    assert (E1 : uniform g ((2, 1)%nat :: k1) (a_t_min a) (a_t_max a t) = uniform g' ((2, 1)%nat :: k1) (a_t_min a) (a_t_max a t))
      by (apply uniform_eq, HT; unfold under; auto with keys).
    cbv zeta. rewrite E1. f_equal. f_equal. apply (next_phi_local _ _ _ _ _ _ _ KA); auto with keys.
  - split; assumption.
  - unfold path in *. rewrite E. reflexivity.
Qed.

Lemma ang_loop_local a A0 T Ts KT KA : same_on g g' (under KT) -> same_on g g' (under KA) ->
  forall fuel i t phi kt ka tab, below KT kt -> below KA ka ->
  ang_loop g parse_float fuel a A0 T Ts (i, t, phi, kt, ka, tab) = ang_loop g' parse_float fuel a A0 T Ts (i, t, phi, kt, ka, tab) /\
  forall i' t' phi' kt' ka' tab', ang_loop g parse_float fuel a A0 T Ts (i, t, phi, kt, ka, tab) = Ok (i', t', phi', kt', ka', tab') -> below KA ka'.
Proof.
  intros HT HA. induction fuel as [|n IH]; intros i t phi kt ka tab BT BA; cbn [ang_loop].
  - destruct (rle t T); split; try reflexivity; intros; [discriminate|]. congruence.
  - destruct (rle t T); [|split; [reflexivity|intros; congruence]].
    rewrite !Sg, !Sg'. rewrite (resolve_local a A0 t phi KT KA) by auto with keys.
    destruct (resolve_range_of_motion g' parse_float a A0 t phi ((2, 1)%nat :: kt) ((2, 1)%nat :: ka)) as [[dt ph]|]; cbn [bind];
      [|split; [reflexivity|intros; discriminate]].
    apply IH; auto with keys.
Qed.

Lemma angle_local a rnd kt ka A0 T Ts N : same_on g g' (under kt) -> same_on g g' (under ka) ->
  random_angle_over_time g parse_float a rnd kt ka A0 T Ts N = random_angle_over_time g' parse_float a rnd kt ka A0 T Ts N.
Proof.
  intros HT HA. unfold random_angle_over_time, angle_table. destruct (table_rows T (a_t_min a)) as [rows|]; [|reflexivity]. cbn [bind].
  destruct (ang_loop_local a A0 T Ts kt ka HT HA (S rows) 1 0 A0 kt ka (first_table rows A0) (below_refl _) (below_refl _)) as [E B].
  rewrite <- E. destruct (ang_loop g _ _ _ _ _ _ _) as [[[[[[i t] phi] k1] k2] tab]|]; [|reflexivity]. cbn [bind fst snd].
  rewrite (read_local _ _ ka); [reflexivity|exact HA|]. eapply B. reflexivity.
Qed.

Lemma pos_loop_local a T Ts K : same_on g g' (under K) ->
  forall fuel i t x k tab, below K k ->
  pos_loop g fuel a T Ts (i, t, x, k, tab) = pos_loop g' fuel a T Ts (i, t, x, k, tab) /\
  forall i' t' x' k' tab', pos_loop g fuel a T Ts (i, t, x, k, tab) = Ok (i', t', x', k', tab') -> below K k'.
Proof.
  intros H. induction fuel as [|n IH]; intros i t x k tab B; cbn [pos_loop].
  - destruct (rle t T); split; try reflexivity; intros; [discriminate|]. congruence.
  - destruct (rle t T); [|split; [reflexivity|intros; congruence]].
    rewrite !Sg, !Sg'. rewrite (uniform_eq ((2, 1)%nat :: k)) by (apply H; unfold under; auto with keys).
    set (t' := t + uniform g' ((2, 1)%nat :: k) (p_t_min a) (p_t_max a t)).
    destruct (while_local (try_cond a t' t x) (try_body g a t' t x) (try_body g' a t' t x)
      (fun v : try_state => let '(_, _, k) := v in below K k)) with (n := S (S (p_max_it a))) (x := (0%nat, x, (2, 0)%nat :: k)) as [E I].
    + intros [[j y] k0] B0. unfold try_body. destruct (p_max_it a <? j)%nat; [split; [reflexivity|exact B0]|].
      rewrite !Sg, !Sg'. split; [|auto with keys].
      rewrite (sa_coin g g' ((3, 1)%nat :: k0)) by (apply H; unfold under; auto with keys).
      rewrite (uniform_eq ((3, 2)%nat :: k0)) by (apply H; unfold under; auto with keys). reflexivity.
    + auto with keys.
    + unfold path in *. rewrite E in I |- *.
      destruct (while (S (S (p_max_it a))) (try_cond a t' t x) (try_body g' a t' t x) (0%nat, x, (2%nat, 0%nat) :: k)) as [[[j y] k1]|]; cbn [bind];
        [|split; [reflexivity|intros; discriminate]].
      apply IH. exact (I _ eq_refl).
Qed.

Lemma position_local a rnd k P0 T Ts N : same_on g g' (under k) ->
  random_position_over_time g a rnd k P0 T Ts N = random_position_over_time g' a rnd k P0 T Ts N.
Proof.
  intros H. unfold random_position_over_time, position_table. destruct (table_rows T (p_t_min a)) as [rows|]; [|reflexivity]. cbn [bind].
  destruct (pos_loop_local a T Ts k H (S rows) 1 0 P0 k (first_table rows P0) (below_refl _)) as [E B].
  rewrite <- E. destruct (pos_loop g _ _ _ _ _) as [[[[[i t] x] k1] tab]|]; [|reflexivity]. cbn [bind fst snd].
  rewrite (read_local _ _ k); [reflexivity|exact H|]. eapply B. reflexivity.
Qed.

(** ** The draw functions *)
Lemma rxyz_local c kt kv dt N rom fs : same_on g g' (under kt) -> same_on g g' (under kv) ->
  draw_rxyz g parse_float c kt kv dt N rom fs = draw_rxyz g' parse_float c kt kv dt N rom fs.
Proof.
  intros HT HV. unfold draw_rxyz. cbv zeta. rewrite !Sg, !Sg'.
  rewrite (uniform_eq ((2, 1)%nat :: kv)) by (apply HV; unfold under; auto with keys).
  apply angle_local; [exact HT|]. apply (same_under _ _ kv); auto with keys.
Qed.
Lemma pos_local c kv dt N cor pmin pmax p0 p1 : same_on g g' (under kv) ->
  draw_pos g c kv dt N cor pmin pmax p0 p1 = draw_pos g' c kv dt N cor pmin pmax p0 p1.
Proof.
  intros HV. unfold draw_pos. cbv zeta. rewrite !Sg, !Sg'.
  rewrite (uniform_eq ((2, 1)%nat :: kv)) by (apply HV; unfold under; auto with keys).
  apply position_local. apply (same_under _ _ kv); auto with keys.
Qed.
Lemma spherical_local c kt kv dt N : same_on g g' (under kt) -> same_on g g' (under kv) ->
  draw_spherical g parse_float c kt kv dt N = draw_spherical g' parse_float c kt kv dt N.
Proof.
  intros HT HV. unfold draw_spherical. f_equal. apply mapM_ext. intros j _. rewrite !Sg, !Sg'.
  apply rxyz_local; [apply (same_under _ _ kt)|apply (same_under _ _ kv)]; auto with keys.
Qed.
Lemma saddle_local c kt kv dt N : same_on g g' (under kt) -> same_on g g' (under kv) ->
  draw_saddle g parse_float c kt kv dt N = draw_saddle g' parse_float c kt kv dt N.
Proof.
  intros HT HV. unfold draw_saddle. f_equal. apply mapM_ext. intros j _. rewrite !Sg, !Sg'.
  apply rxyz_local; [apply (same_under _ _ kt)|apply (same_under _ _ kv)]; auto with keys.
Qed.
Lemma p3d_local c kv dt N cor : same_on g g' (under kv) ->
  draw_p3d_and_cor g c kv dt N cor = draw_p3d_and_cor g' c kv dt N cor.
Proof.
  intros HV. unfold draw_p3d_and_cor. cbv zeta. rewrite !Sg, !Sg'.
  rewrite !(pos_local c (_ :: kv)) by (apply (same_under _ _ kv); auto with keys). reflexivity.
Qed.
Lemma free_local c kt kv dt N : same_on g g' (under kt) -> same_on g g' (under kv) ->
  draw_free g parse_float c kt kv dt N = draw_free g' parse_float c kt kv dt N.
Proof.
  intros HT HV. unfold draw_free, draw_p3d. rewrite !Sg, !Sg'.
  rewrite spherical_local, p3d_local; [reflexivity|apply (same_under _ _ kv); auto with keys|exact HT|apply (same_under _ _ kv); auto with keys].
Qed.
Lemma cor_local c kt kv dt N : same_on g g' (under kt) -> same_on g g' (under kv) ->
  draw_cor g parse_float c kt kv dt N = draw_cor g' parse_float c kt kv dt N.
Proof.
  intros HT HV. unfold draw_cor. rewrite !Sg, !Sg'.
  rewrite free_local, p3d_local; [reflexivity|apply (same_under _ _ kv); auto with keys|exact HT|apply (same_under _ _ kv); auto with keys].
Qed.
Lemma free_2d_local c kt kv dt N : same_on g g' (under kt) -> same_on g g' (under kv) ->
  draw_free_2d g parse_float c kt kv dt N = draw_free_2d g' parse_float c kt kv dt N.
Proof.
  intros HT HV. unfold draw_free_2d, draw_p3d. rewrite !Sg, !Sg'.
  rewrite rxyz_local, p3d_local; [reflexivity|apply (same_under _ _ kv); auto with keys|exact HT|apply (same_under _ _ kv); auto with keys].
Qed.
End Local.
