(** * The composite rigid body algorithm and the recursive Newton-Euler algorithm on a tree. *)
From Coq Require Import Reals Lra String ZArith Lia Bool List.
From Verif Require Import Prelude M_Sys S_Sys P_Scan P_Run M_Math P_Math M_Geom P_Geom M_Joint M_Kin M_Dyn S_Kin P_Joint P_Kin P_Mat S_Dyn.
Import ListNotations.

Definition bsym (it : inertia) : Prop := forall u w, m_dot u (i_mul it w) = m_dot w (i_mul it u).
Lemma bsym_isym it : isym it -> bsym it. Proof. intros H u w. now apply isym_dot. Qed.
Lemma bsym_iadd a b : bsym a -> bsym b -> bsym (iadd a b).
Proof. intros A B u w. rewrite !i_mul_iadd, !m_dot_add_r, (A u w), (B u w). reflexivity. Qed.
Lemma inertia_pull t it u w : tunit t ->
  m_dot u (i_mul (t_inertia (t_inv t) it) w) = m_dot (t_motion t u) (i_mul it (t_motion t w)).
Proof.
  intros H. rewrite t_inertia_i_mul by now apply tunit_inv. rewrite t_force_adj by now apply tunit_inv.
  now rewrite t_inv_inv.
Qed.
Lemma bsym_tinertia t it : tunit t -> bsym it -> bsym (t_inertia (t_inv t) it).
Proof. intros H B u w. rewrite !inertia_pull by auto. apply B. Qed.

Lemma t_motion_zero t : t_motion t szero = szero.
Proof.
  assert (E : szero = sscale 0 szero) by vring. rewrite E at 1. rewrite t_motion_scale.
  generalize (t_motion t szero). intros [[] []]. vring.
Qed.
Lemma sadd_0_r a : sadd a szero = a. Proof. vring. Qed.

Lemma firstn_sum_S qs i w : nth_error qs i = Some w -> list_sum (firstn (S i) qs) = list_sum (firstn i qs) + w.
Proof.
  revert i. induction qs as [|a r IH]; intros [|i] H; try discriminate; cbn [nth_error firstn list_sum fold_right] in *.
  - injection H as ->. cbn. lia.
  - rewrite IH by auto. fold (list_sum (firstn i r)). unfold list_sum. cbn [fold_right]. fold (list_sum (firstn i r)). lia.
Qed.

Section Tree.
Variable n : nat.
Variable par : nat -> Z.
Variable X : nat -> transform.
Hypothesis Hpar : forall i, i < n -> (-1 <= par i < Z.of_nat i)%Z.
Hypothesis HX : forall i, i < n -> tunit (X i).

Definition up (v : nat -> spatial) (i : nat) : spatial :=
  if (par i =? -1)%Z then szero else t_motion (X i) (v (Z.to_nat (par i))).
(** [v] is the velocity field of the joint velocities [s]. *)
Definition is_field (s v : nat -> spatial) : Prop := forall i, i < n -> v i = sadd (s i) (up v i).

Fixpoint field (fuel : nat) (s : nat -> spatial) (i : nat) : spatial :=
  match fuel with
  | 0 => szero
  | S k => sadd (s i) (if (par i =? -1)%Z then szero else t_motion (X i) (field k s (Z.to_nat (par i))))
  end.
Lemma field_fuel s : forall k i, i < n -> i < k -> forall k', i < k' -> field k s i = field k' s i.
Proof using Hpar.
  induction k as [|k IH]; intros i Hi Hk [|k'] Hk'; try lia. cbn [field]. f_equal.
  destruct (Z.eqb_spec (par i) (-1)); auto. pose proof (Hpar i Hi). f_equal. apply IH; lia.
Qed.
Lemma field_is s : is_field s (fun i => field (S i) s i).
Proof using Hpar.
  intros i Hi. unfold up. change (field (S i) s i) with
    (sadd (s i) (if (par i =? -1)%Z then szero else t_motion (X i) (field i s (Z.to_nat (par i))))). f_equal.
  destruct (Z.eqb_spec (par i) (-1)); auto.
  pose proof (Hpar i Hi). f_equal. apply field_fuel; lia.
Qed.
Lemma field_unique s v w : is_field s v -> is_field s w -> forall i, i < n -> v i = w i.
Proof using Hpar.
  intros A B i. induction i as [i IH] using lt_wf_ind. intros Hi. rewrite (A i Hi), (B i Hi). f_equal. unfold up.
  destruct (Z.eqb_spec (par i) (-1)); auto. pose proof (Hpar i Hi). f_equal. apply IH; lia.
Qed.

(** ** Composite inertias *)
Definition gi (its : list inertia) i := nth i its izero.
(** The folded inertias and the energy they account for. *)
Lemma py_get_nat {A} (l : list A) i d : i < length l -> py_get l (Z.of_nat i) = Ok (nth i l d).
Proof.
  intros H. unfold py_get. destruct (Z.ltb_spec (Z.of_nat i) 0); [lia|].
  destruct (Z.leb_spec 0 (Z.of_nat i)); [|lia]. destruct (Z.ltb_spec (Z.of_nat i) (Z.of_nat (length l))); [|lia].
  cbn [andb]. rewrite Nat2Z.id, (nth_error_nth' l d H). reflexivity.
Qed.
Lemma set_at_length {A} (l : list A) i v : length (set_at l i v) = length l.
Proof. revert i. induction l; intros [|i]; cbn; auto. Qed.
Lemma set_at_nth {A} (l : list A) i v j d : i < length l -> nth j (set_at l i v) d = if (j =? i) then v else nth j l d.
Proof.
  revert i j. induction l as [|a l IH]; intros i j H; cbn in H; [lia|]. destruct i as [|i], j as [|j]; cbn; auto.
  apply IH. lia.
Qed.

Context {P : Type}.
Variable l_to_p : list transform.
Hypothesis Hlp : length l_to_p = n /\ forall i, i < n -> nth i l_to_p t_zero = t_inv (X i).
Definition prow (i : nat) : list (piece (arg P)) := [One (AInt (Z.of_nat i)); One (AInt (par i))].

Lemma rev_seq_S k : rev (seq 0 (S k)) = k :: rev (seq 0 k).
Proof. now rewrite seq_S, rev_app_distr. Qed.

Lemma acc_run im : forall k its y, k <= n -> length its = n ->
  exists outs its', run (accumulate_inertias l_to_p) im y its (map prow (rev (seq 0 k))) = Ok (outs, its') /\
    length outs = k /\
    ((forall i, i < n -> bsym (gi its i)) -> forall i, i < k -> bsym (gi (rev outs) i)) /\
    forall s v t w, is_field s v -> is_field t w ->
      (sumR k (fun i => m_dot (v i) (i_mul (gi its i) (w i))) =
       sumR k (fun i => m_dot (s i) (i_mul (gi (rev outs) i) (w i)) + m_dot (up v i) (i_mul (gi (rev outs) i) (t i))))%R.
Proof.
  induction k as [|k IH]; intros its y Hk Hl.
  - exists [], its. cbn. repeat split; auto. intros. lia.
  - rewrite rev_seq_S. cbn [map run]. assert (Hkn : k < n) by lia. pose proof (Hpar k Hkn) as Hp.
    set (it_k := gi its k).
    set (its1 := if (par k =? -1)%Z then its else
       set_at its (Z.to_nat (par k)) (iadd (gi its (Z.to_nat (par k))) (t_inertia (t_inv (X k)) it_k))).
    assert (ST : accumulate_inertias l_to_p y im (prow k) its = Ok (it_k, its1)).
    { unfold accumulate_inertias, prow, its1. rewrite (py_get_nat its k izero) by lia. cbn [bind]. fold (gi its k). fold it_k.
      destruct (Z.eqb_spec (par k) (-1)); auto. destruct Hlp as [L1 L2].
      rewrite (py_get_nat l_to_p k t_zero) by lia. cbn [bind]. rewrite L2 by auto.
      replace (par k) with (Z.of_nat (Z.to_nat (par k))) at 1 by lia.
      rewrite (py_get_nat its (Z.to_nat (par k)) izero) by lia. reflexivity. }
    rewrite ST. cbn [bind fst snd].
    assert (L1 : length its1 = n) by (unfold its1; destruct (Z.eqb_spec (par k) (-1)); rewrite ?set_at_length; auto).
    destruct (IH its1 (Some it_k) ltac:(lia) L1) as (outs & its' & R1 & R2 & R3 & R4). rewrite R1. cbn [bind fst snd].
    exists (it_k :: outs), its'. split; [reflexivity|]. split; [cbn; now rewrite R2|].
    assert (G1 : forall i, i < k -> gi (rev (it_k :: outs)) i = gi (rev outs) i).
    { intros i Hi. unfold gi. cbn [rev]. rewrite app_nth1; auto. rewrite rev_length. lia. }
    assert (G2 : gi (rev (it_k :: outs)) k = it_k).
    { unfold gi. cbn [rev]. rewrite app_nth2; rewrite rev_length, R2; auto. now rewrite Nat.sub_diag. }
    split.
    + intros BS i Hi. destruct (Nat.eq_dec i k) as [->|]; [rewrite G2; now apply BS|].
      rewrite G1 by lia. apply R3; [|lia]. intros j Hj. unfold its1. destruct (Z.eqb_spec (par k) (-1)); auto.
      unfold gi. rewrite set_at_nth by lia. destruct (Nat.eqb_spec j (Z.to_nat (par k))); [|now apply BS].
      apply bsym_iadd; [apply BS; lia|]. apply bsym_tinertia; [now apply HX|now apply BS].
    + intros s v t w Hv Hw. cbn [sumR]. rewrite G2. specialize (R4 s v t w Hv Hw).
      rewrite (sumR_ext k (fun i => (m_dot (s i) (i_mul (gi (rev (it_k :: outs)) i) (w i)) + _)%R)
        (fun i => (m_dot (s i) (i_mul (gi (rev outs) i) (w i)) + m_dot (up v i) (i_mul (gi (rev outs) i) (t i)))%R))
        by (intros i Hi; now rewrite G1).
      rewrite <- R4. clear R4. rewrite (Hv k Hkn) at 1. rewrite m_dot_add_l. rewrite (Hw k Hkn) at 2.
      rewrite i_mul_add, m_dot_add_r. fold it_k.
      assert (E : (sumR k (fun i => m_dot (v i) (i_mul (gi its1 i) (w i))) =
        sumR k (fun i => m_dot (v i) (i_mul (gi its i) (w i))) + m_dot (up v k) (i_mul it_k (up w k)))%R); [|rewrite E; ring].
      unfold its1, up. destruct (Z.eqb_spec (par k) (-1)) as [E|E].
      * rewrite m_dot_zero_l. ring.
      * set (p := Z.to_nat (par k)). assert (Hpk : p < k) by (unfold p; lia).
        rewrite <- (inertia_pull (X k)) by now apply HX.
        transitivity (sumR k (fun i => m_dot (v i) (i_mul (gi its i) (w i)) +
           (if i =? p then m_dot (v p) (i_mul (t_inertia (t_inv (X k)) it_k) (w p)) else 0))%R).
        -- apply sumR_ext. intros i Hi. unfold gi at 1. rewrite set_at_nth by lia.
           destruct (Nat.eqb_spec i p); [subst i; rewrite i_mul_iadd, m_dot_add_r; reflexivity|fold (gi its i); ring].
        -- rewrite sumR_add. f_equal. rewrite (sumR_delta k p); auto.
           ++ now rewrite Nat.eqb_refl.
           ++ intros j _ Hj. destruct (Nat.eqb_spec j p); congruence.
Qed.

(** ** Populating the matrix *)
Variable ds : list nat.
Hypothesis Hds : length ds = n.
Variable S_ : nat -> list spatial.
Hypothesis HS : forall i, i < n -> length (S_ i) = nth i ds 0.
Variable ss : list (option (list spatial)).
Hypothesis Hss : length ss = n.
Hypothesis Hss_nth : forall i, i < n -> nth i ss None = match S_ i with [] => None | _ => Some (S_ i) end.
Variable parents : list Z.
Hypothesis Hparents : length parents = n /\ forall i, i < n -> nth i parents (-1)%Z = par i.

Definition off (i : nat) : nat := list_sum (firstn i ds).
Definition wd (i : nat) : nat := nth i ds 0.
Notation nd := (list_sum ds).
Notation slices := (slices_from 0 ds).
Lemma off_S i : i < n -> off (S i) = off i + wd i.
Proof using Hds. clear - Hds.
  intros H. unfold off, wd. apply firstn_sum_S. apply nth_error_nth'. lia.
Qed.
Lemma off_mono i j : i <= j -> j <= n -> off i <= off j.
Proof using Hds. clear - Hds. intros H. induction H; intros Hn; auto. rewrite off_S by lia. specialize (IHle ltac:(lia)). lia. Qed.
Lemma off_n : off n = nd.
Proof using Hds. clear - Hds. unfold off. rewrite <- Hds, firstn_all. reflexivity. Qed.
Lemma off_le i : i < n -> off i + wd i <= nd.
Proof using Hds. clear - Hds. intros H. rewrite <- off_n, <- off_S by auto. apply off_mono; lia. Qed.
Lemma off_lt i j : j < i -> i < n -> off j + wd j <= off i.
Proof using Hds. clear - Hds. intros H Hi. rewrite <- off_S by lia. apply off_mono; lia. Qed.
Lemma nth_slice i : i < n -> nth_error slices i = Some (off i, off i + wd i).
Proof using Hds. clear - Hds.
  intros H. apply (nth_slices_from ds 0). unfold wd. apply nth_error_nth'. lia.
Qed.

(** Joint velocities of a vector of generalised velocities. *)
Definition jv (x : nat -> R) (i : nat) : spatial := motion_sum (S_ i) (map (fun k => x (off i + k)) (seq 0 (wd i))).
Lemma dot_jv f x i : i < n -> (m_dot f (jv x i) = sumR (wd i) (fun c => m_dot f (nth c (S_ i) szero) * x (off i + c)%nat))%R.
Proof using HS. clear - HS.
  intros H. unfold jv. rewrite dot_motion_sum, HS by auto. apply sumR_ext. intros k Hk. fold (wd i) in Hk.
  unfold getR. rewrite (nth_error_nth (map (fun k0 => x (off i + k0)) (seq 0 (wd i))) k 0%R (x := x (off i + k))) by now rewrite nth_map_seq.
  ring.
Qed.

Lemma walk_spec i y w : i < n -> is_field (jv y) w -> forall fuel j f H, j <= i -> j < fuel -> length f = wd i ->
  (forall a b, off i <= a < off i + wd i -> b < off j -> H a b = 0%R) ->
  exists H', walk_up fuel parents l_to_p ss slices (off i, off i + wd i) j f H = Ok H' /\
    (forall a b, ~ (off i <= a < off i + wd i /\ b < off j) -> H' a b = H a b) /\
    (forall x, dia nd H' x x = dia nd H x x) /\
    (forall x y', dia nd H' x y' = dia nd H x y') /\
    (forall x, bil nd H' x y = bil nd H x y + sumR (wd i) (fun r => x (off i + r)%nat * m_dot (nth r f szero) (up w j)))%R.
Proof.
  intros Hi Hw. induction fuel as [|fuel IH]; intros j f H Hj Hf Lf Z; [lia|].
  destruct Hparents as [LP NP]. destruct Hlp as [LL NL]. assert (Hjn : j < n) by lia. pose proof (Hpar j Hjn) as PR.
  cbn [walk_up]. rewrite (py_get_nat parents j (-1)%Z) by lia. rewrite NP by auto. cbn [bind].
  unfold up. destruct (Z.eqb_spec (par j) (-1)) as [E|E].
  - exists H. repeat split; auto. intros x. rewrite (sumR_0 (wd i)); [ring|]. intros k _. rewrite m_dot_zero_r. ring.
  - rewrite (py_get_nat l_to_p j t_zero) by lia. cbn [bind]. rewrite NL by auto.
    set (p := Z.to_nat (par j)). assert (Hp : p < j) by (unfold p; lia).
    replace (py_get ss (par j)) with (Ok (nth p ss None)).
    2:{ replace (par j) with (Z.of_nat p) by (unfold p; lia). symmetry. apply py_get_nat. lia. }
    cbn [bind]. rewrite Hss_nth by lia. set (f' := map (t_force (t_inv (X j))) f).
    assert (Lf' : length f' = wd i) by (unfold f'; now rewrite map_length).
    assert (F' : forall r, r < wd i -> m_dot (nth r f szero) (t_motion (X j) (w p)) =
                 (m_dot (nth r f' szero) (jv y p) + m_dot (nth r f' szero) (up w p))%R).
    { intros r Hr. rewrite <- m_dot_add_r, <- Hw by lia. unfold f'.
      rewrite (nth_indep (map _ f) szero (t_force (t_inv (X j)) szero)) by (rewrite map_length; lia).
      rewrite map_nth. rewrite (m_dot_comm (t_force _ _)), t_force_adj, t_inv_inv by (auto using tunit_inv).
      apply m_dot_comm. }
    pose proof (off_lt j p Hp Hjn) as OP. pose proof (off_le p) as OL.
    assert (OJ : off j <= off i) by (apply off_mono; lia).
    assert (HI : off i + wd i <= nd) by now apply off_le.
    destruct (S_ p) as [|m0 ms0] eqn:ES.
    + destruct (IH p f' H) as (H' & A & B & C & C' & D); try lia; auto.
      { intros a b Ha Hb. apply Z; lia. }
      exists H'. split; [exact A|]. split.
      { intros a b N. apply B. lia. }
      split; [exact C|]. split; [exact C'|]. intros x. rewrite D. f_equal. apply sumR_ext. intros r Hr. fold p. rewrite F' by auto.
      unfold jv at 1. rewrite ES. change (motion_sum [] _) with szero. rewrite m_dot_zero_r. ring.
    + change (Z.to_nat (par j)) with p. rewrite nth_slice by lia. rewrite <- ES.
      set (H1 := set_block H _ _ _).
      assert (ZB : forall a b, off i <= a < off i + wd i -> off p <= b < off p + wd p -> H a b = 0%R).
      { intros a b Ha Hb. apply Z; lia. }
      destruct (IH p f' H1) as (H' & A & B & C & C' & D); try lia; auto.
      { intros a b Ha Hb. unfold H1, set_block, in_slice. cbn [fst snd].
        destruct (Nat.leb_spec (off p) b); [lia|]. rewrite andb_false_l, andb_false_r. apply Z; lia. }
      exists H'. split; [exact A|].
      assert (B1 : forall a b, ~ (off i <= a < off i + wd i /\ b < off j) -> H1 a b = H a b).
      { intros a b N. unfold H1, set_block, in_slice. cbn [fst snd].
        destruct (Nat.leb_spec (off i) a), (Nat.ltb_spec a (off i + wd i)), (Nat.leb_spec (off p) b), (Nat.ltb_spec b (off p + wd p)); cbn [andb]; auto.
        exfalso. apply N. lia. }
      split.
      { intros a b N. rewrite B by lia. now apply B1. }
      assert (DD : forall x y', dia nd H1 x y' = dia nd H x y') by (intros; apply dia_block_off; lia).
      split; [intros; rewrite C; apply DD|]. split; [intros; rewrite C'; apply DD|].
      intros x. rewrite D. unfold H1. rewrite bil_block by (auto; lia). rewrite Rplus_assoc. f_equal.
      rewrite <- sumR_add. apply sumR_ext. intros r Hr. fold p. rewrite F' by auto. rewrite Rmult_plus_distr_l. f_equal.
      rewrite dot_jv by lia. rewrite <- sumR_scale. apply sumR_ext. intros c Hc. unfold outer. ring.
Qed.

Lemma bil_sum_jv i it x y : i < n -> (forall u w, m_dot u (i_mul it w) = m_dot w (i_mul it u)) ->
  (sumR (wd i) (fun r => sumR (wd i) (fun c => x (off i + r)%nat * outer (map (i_mul it) (S_ i)) (S_ i) r c * y (off i + c)%nat))
   = m_dot (jv x i) (i_mul it (jv y i)))%R.
Proof using HS. clear - HS.
  intros Hi B. rewrite m_dot_comm, dot_jv by auto. apply sumR_ext. intros r Hr.
  rewrite (m_dot_comm (i_mul it (jv y i))), B, (m_dot_comm (jv y i)), dot_jv by auto.
  rewrite <- sumR_scale_r. apply sumR_ext. intros c Hc. unfold outer.
  rewrite (nth_indep (map _ (S_ i)) szero (i_mul it szero)) by (rewrite map_length, HS by auto; exact Hr).
  rewrite map_nth. ring.
Qed.

Variable Ic : list inertia.
Hypothesis HIc : length Ic = n.
Hypothesis HIb : forall i, i < n -> bsym (gi Ic i).
Context {O : Type}.
Variable s : System R (plink (params P)) geometry O.
Hypothesis Hsn : num_links s = n.
Hypothesis Hsp : link_parents s = parents.

Lemma pop_run y w dd : is_field (jv y) w -> forall k st H, k <= n ->
  (forall a b, a < off k -> H a b = 0%R) -> (forall a b, a < b -> H a b = 0%R) ->
  exists outs H', run (@populate_H P O s l_to_p (map i_as_matrix Ic) ss) (mkIM dd slices) st H
      (map (fun i => [One (AInt (Z.of_nat i))]) (rev (seq 0 k))) = Ok (outs, H') /\
    (forall a b, a < b -> H' a b = 0%R) /\
    forall x v, is_field (jv x) v ->
      (bil nd H' x y + bil nd H' y x - dia nd H' y x = bil nd H x y + bil nd H y x - dia nd H y x +
       sumR k (fun i => m_dot (jv x i) (i_mul (gi Ic i) (w i)) + m_dot (up v i) (i_mul (gi Ic i) (jv y i))))%R.
Proof.
  intros Hw. induction k as [|k IH]; intros st H Hk Z L.
  - exists [], H. cbn [seq rev map run sumR]. repeat split; auto. intros. ring.
  - rewrite rev_seq_S. cbn [map run]. assert (Hkn : k < n) by lia.
    assert (OL : off k + wd k <= nd) by now apply off_le. pose proof (off_S k Hkn) as OS.
    assert (ST : exists H1, populate_H s l_to_p (map i_as_matrix Ic) ss st (mkIM dd slices) [One (AInt (Z.of_nat k))] H = Ok (tt, H1) /\
       (forall a b, a < off k -> H1 a b = 0%R) /\ (forall a b, a < b -> H1 a b = 0%R) /\
       forall x v, is_field (jv x) v -> (bil nd H1 x y + bil nd H1 y x - dia nd H1 y x = bil nd H x y + bil nd H y x - dia nd H y x +
         (m_dot (jv x k) (i_mul (gi Ic k) (w k)) + m_dot (up v k) (i_mul (gi Ic k) (jv y k))))%R).
    { unfold populate_H. rewrite (py_get_nat ss k None) by lia. rewrite Hss_nth by auto. cbn [bind].
      destruct (S_ k) as [|m0 ms0] eqn:ES.
      - exists H. split; [reflexivity|]. split; [intros; apply Z; lia|]. split; [exact L|]. intros x v Hv.
        unfold jv. rewrite ES. change (motion_sum [] ?l) with szero. rewrite m_dot_zero_l.
        assert (E : i_mul (gi Ic k) szero = szero) by (generalize (gi Ic k); intros [[[] [] []] [] ?]; vring).
        rewrite E, m_dot_zero_r. ring.
      - rewrite <- ES. rewrite (py_get_nat (map i_as_matrix Ic) k (i_as_matrix izero)) by (rewrite map_length; lia).
        cbn [bind im_d]. rewrite map_nth. fold (gi Ic k). rewrite Nat2Z.id, nth_slice by auto.
        assert (EF : map (m6vec (i_as_matrix (gi Ic k))) (S_ k) = map (i_mul (gi Ic k)) (S_ k)).
        { apply map_ext. intros. apply as_matrix_inertia. }
        rewrite EF. set (f := map (i_mul (gi Ic k)) (S_ k)).
        set (B := outer f (S_ k)). set (H0 := set_block H _ _ (tril B)).
        assert (Lf : length f = wd k) by (unfold f; rewrite map_length, HS; auto).
        assert (B0 : forall a b, off k <= a < off k + wd k -> b < off k -> H0 a b = 0%R).
        { intros a b Ha Hb. unfold H0, set_block, in_slice. cbn [fst snd].
          destruct (Nat.leb_spec (off k) b); [lia|]. rewrite andb_false_l, andb_false_r. apply Z. lia. }
        assert (W : forall y' w', is_field (jv y') w' -> exists H', walk_up (S (num_links s)) (link_parents s) l_to_p ss slices (off k, off k + wd k) k f H0 = Ok H' /\
    (forall a b, ~ (off k <= a < off k + wd k /\ b < off k) -> H' a b = H0 a b) /\
    (forall x, dia nd H' x x = dia nd H0 x x) /\
    (forall x y', dia nd H' x y' = dia nd H0 x y') /\
    (forall x, bil nd H' x y' = bil nd H0 x y' + sumR (wd k) (fun r => x (off k + r)%nat * m_dot (nth r f szero) (up w' k)))%R).
        { intros y' w' Hy'. rewrite Hsp. apply walk_spec; auto. lia. }
        destruct (W y w Hw) as (H1 & A & A1 & _ & A2 & A3). exists H1. rewrite A. split; [reflexivity|].
        split; [|split].
        + intros a b Ha. rewrite A1 by lia. unfold H0, set_block, in_slice. cbn [fst snd].
          destruct (Nat.leb_spec (off k) a); [lia|]. cbn [andb]. apply Z. lia.
        + intros a b Ha. destruct (lt_dec b (off k)) as [Hb|Hb].
          * rewrite A1 by lia. unfold H0, set_block, in_slice. cbn [fst snd].
            destruct (Nat.leb_spec (off k) a); [lia|]. cbn [andb]. now apply L.
          * rewrite A1 by lia. unfold H0, set_block, in_slice. cbn [fst snd].
            destruct (Nat.leb_spec (off k) a), (Nat.ltb_spec a (off k + wd k)), (Nat.leb_spec (off k) b), (Nat.ltb_spec b (off k + wd k)); cbn [andb]; auto.
            unfold tril. destruct (Nat.leb_spec (b - off k) (a - off k)); auto. lia.
        + intros x v Hv. destruct (W x v Hv) as (H1' & A' & _ & _ & _ & A3'). rewrite A in A'. injection A' as <-.
          rewrite A2, A3, A3'. unfold H0. rewrite !bil_block, dia_block_on by (auto; intros; apply Z; lia).
          assert (E1 : forall x' u, (sumR (wd k) (fun r => x' (off k + r)%nat * m_dot (nth r f szero) u) = m_dot (jv x' k) (i_mul (gi Ic k) u))%R).
          { intros x' u. rewrite m_dot_comm, dot_jv by auto. apply sumR_ext. intros r Hr. unfold f.
            rewrite (nth_indep (map _ (S_ k)) szero (i_mul (gi Ic k) szero)) by (rewrite map_length, HS by auto; exact Hr).
            rewrite map_nth. rewrite (m_dot_comm (i_mul _ _) u), (HIb k Hkn u), (m_dot_comm _ (i_mul (gi Ic k) u)). ring. }
          rewrite !E1. rewrite (HIb k Hkn (up v k)).
          pose proof (Hw k Hkn) as Ew. rewrite Ew. rewrite i_mul_add, m_dot_add_r.
          pose proof (tril_sym (wd k) B (fun r => y (off k + r)) (fun r => x (off k + r))) as T. cbv beta in T.
          assert (BS : forall r c, r < wd k -> c < wd k -> B r c = B c r).
          { intros r c Hr Hc. unfold B, outer, f. rewrite !(nth_indep (map _ (S_ k)) szero (i_mul (gi Ic k) szero)) by (rewrite map_length, HS by auto; assumption).
            rewrite !map_nth. rewrite m_dot_comm, (HIb k Hkn). apply m_dot_comm. }
          specialize (T BS). unfold B, f in T. rewrite bil_sum_jv in T by (auto; apply HIb; auto). fold f in T. fold B in T.
          rewrite (HIb k Hkn (jv y k)) in T. lra. }
    destruct ST as (H1 & ST & Z1 & L1 & E1). rewrite ST. cbn [bind fst snd].
    destruct (IH (Some tt) H1 ltac:(lia) Z1 L1) as (outs & H' & R1 & R2 & R3). rewrite R1. cbn [bind fst snd].
    exists (tt :: outs), H'. split; [reflexivity|]. split; [exact R2|]. intros x v Hv. rewrite (R3 x v Hv), (E1 x v Hv). cbn [sumR]. ring.
Qed.
End Tree.
