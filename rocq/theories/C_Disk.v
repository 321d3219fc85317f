(** * C71: training data on disk. *)
From Coq Require Import String Ascii ZArith Lia Bool Arith DecimalString List Permutation.
From Verif Require Import Prelude M_Util M_Gen M_Rcmg P_Layout M_Disk S_Disk C_Util C_Gen.
Import ListNotations.
Local Open Scope string_scope.
Local Open Scope list_scope.
Local Open Scope nat_scope.

(** ** Names *)
Lemma chars_app s t : list_ascii_of_string (s ++ t)%string = list_ascii_of_string s ++ list_ascii_of_string t.
Proof. induction s as [|c s IH]; [reflexivity|]. cbn [String.append list_ascii_of_string app]. now rewrite IH. Qed.
Lemma app_inj_l (p a b : string) : (p ++ a)%string = (p ++ b)%string -> a = b.
Proof. induction p as [|c p IH]; cbn; [auto|]. intros H. injection H. auto. Qed.
Lemma app_inj_r (s a b : string) : (a ++ s)%string = (b ++ s)%string -> a = b.
Proof.
  intros H. apply (f_equal list_ascii_of_string) in H. rewrite !chars_app in H. apply app_inv_tail in H. rewrite <- (string_of_list_ascii_of_string a), <- (string_of_list_ascii_of_string b). now f_equal.
Qed.
Lemma str_assoc (a b c : string) : ((a ++ b) ++ c = a ++ b ++ c)%string.
Proof. induction a as [|x a IH]; [reflexivity|]. cbn. now rewrite IH. Qed.
Lemma uint_digits d : no_dot (NilEmpty.string_of_uint d).
Proof. unfold no_dot. induction d; cbn [NilEmpty.string_of_uint list_ascii_of_string In]; intros H; [exact H|..]; (destruct H as [H|H]; [discriminate|auto]). Qed.
Lemma str_nat_digits k : no_dot (str_nat k).
Proof.
  unfold str_nat. destruct (Nat.to_uint k) as [| | | | | | | | | |];
    [exact (uint_digits (Decimal.D0 Decimal.Nil))|exact (uint_digits (Decimal.D0 _))|exact (uint_digits (Decimal.D1 _))|exact (uint_digits (Decimal.D2 _))|exact (uint_digits (Decimal.D3 _))
      |exact (uint_digits (Decimal.D4 _))|exact (uint_digits (Decimal.D5 _))|exact (uint_digits (Decimal.D6 _))|exact (uint_digits (Decimal.D7 _))|exact (uint_digits (Decimal.D8 _))|exact (uint_digits (Decimal.D9 _))].
Qed.
Lemma str_nat_nonempty k : str_nat k <> "".
Proof. unfold str_nat. destruct (Nat.to_uint k); discriminate. Qed.
Lemma no_dot_app s t : no_dot s -> no_dot t -> no_dot (s ++ t)%string.
Proof. unfold no_dot. rewrite chars_app, in_app_iff. tauto. Qed.
Lemma last_dot_none s : no_dot s -> last_dot s = None.
Proof.
  unfold no_dot. induction s as [|c s IH]; [reflexivity|]. cbn [list_ascii_of_string In last_dot]. intros H. rewrite IH by tauto.
  destruct (Ascii.eqb_spec c "."); [subst; tauto|reflexivity].
Qed.
Lemma last_dot_app a b : no_dot b -> last_dot (a ++ "." ++ b)%string = Some (a, b).
Proof.
  intros N. induction a as [|c a IH]; [|cbn [String.append last_dot] in *; now rewrite IH]. cbn [String.append last_dot]. now rewrite (last_dot_none b N).
Qed.
Lemma stem_plain s : no_dot s -> stem s = s.
Proof. intros N. unfold stem. now rewrite last_dot_none. Qed.
Lemma stem_dotted a b : a <> "" -> b <> "" -> no_dot b -> stem (a ++ "." ++ b)%string = a.
Proof.
  intros Na Nb N. unfold stem. rewrite last_dot_app by auto. destruct (String.eqb_spec a ""); [contradiction|]. destruct (String.eqb_spec b ""); [contradiction|]. reflexivity.
Qed.
Lemma file_of_inj p j k : file_of p j = file_of p k -> j = k.
Proof. unfold file_of. intros H. apply app_inj_l in H. apply app_inj_r in H. now apply str_nat_inj. Qed.
Lemma file_not_bare p j k : file_of p j <> (p ++ str_nat k)%string.
Proof.
  unfold file_of. intros H. apply app_inj_l in H. apply (str_nat_digits k). rewrite <- H, chars_app. apply in_or_app. right. now left.
Qed.

(** ** The folder *)
Section Folder.
Context {K A : Type}.
Variable m : machine.
Variable split : K -> nat -> list K.
Variable isnan : A -> bool.
Variable draws : nat -> list nat.
Variable prefix : string.
Variable before : disk A.
Notation stands_for := (stands_for isnan).
Hypothesis split_length : forall k n, length (split k n) = n.
Notation eqs := String.eqb_eq.

(** The file pickle_save writes for the i-th sequence. *)
Definition target (i : nat) : string := (stem (prefix ++ str_nat i) ++ ".pickle")%string.
Definition writes (i : nat) (ds : list A) : list (op A) := flat_map (fun jd => [Open (target (fst jd)); Fill (target (fst jd)) (snd jd)]) (enum_from i ds).
Lemma writes_app i a b : writes i (a ++ b) = writes i a ++ writes (i + length a) b.
Proof. unfold writes. rewrite enum_from_app, flat_map_app. reflexivity. Qed.

Lemma save_all_spec ow : forall ds i os i' os' r, save_all ow prefix before ds i os = (i', os', r) ->
  exists k, k <= length ds /\ i' = i + k /\ os' = os ++ writes i (firstn k ds) /\ (r = Ok tt -> k = length ds) /\ (ow = true -> r = Ok tt).
Proof.
  induction ds as [|d ds IH]; intros i os i' os' r H; cbn [save_all] in H.
  - injection H as <- <- <-. exists 0. unfold writes. cbn. rewrite app_nil_r. auto.
  - unfold parse_path at 1 in H. destruct (negb ow && is_file (apply_ops before os) (prefix ++ str_nat i)) eqn:X; cbn [bind] in H.
    + injection H as <- <- <-. exists 0. unfold writes. cbn. rewrite app_nil_r. split; [lia|]. split; [lia|]. split; [auto|]. split; [discriminate|]. intros ->. discriminate.
    + unfold pickle_save, parse_path in H. cbn [negb andb bind dotted Ascii.eqb] in H. apply IH in H. destruct H as (k & L & -> & -> & R & T). exists (S k). cbn [length firstn].
      split; [lia|]. split; [lia|]. split; [|split; auto]. rewrite <- app_assoc. f_equal. replace (i + 1) with (S i) by lia. reflexivity.
Qed.
(** Feeding batches to the callback until it fails. *)
Fixpoint feed (ow : bool) (st : @fstate A) (batches : list (list A)) : @fstate A * result unit :=
  match batches with
  | [] => (st, Ok tt)
  | b :: r => match callback isnan draws ow prefix before st b with (st, Err e) => (st, Err e) | (st, Ok _) => feed ow st r end
  end.
Lemma feed_app ow a : forall b st, feed ow st (a ++ b) = match feed ow st a with (st', Ok _) => feed ow st' b | r => r end.
Proof. induction a as [|x a IH]; intros b st; cbn [feed app]; [reflexivity|]. destruct (callback _ _ _ _ _ _ _) as [st1 [u|e]]; [apply IH|reflexivity]. Qed.

Lemma stands_incl d d' x o : incl d d' -> stands_for d x o -> stands_for d' x o.
Proof. intros I (A1 & A2 & A3). split; [auto|]. split; auto. Qed.
Lemma Forall2_firstn {X Y} (R : X -> Y -> Prop) a b k : Forall2 R a b -> Forall2 R (firstn k a) (firstn k b).
Proof. intros F. revert k. induction F; intros [|k]; cbn; auto. Qed.
Lemma Forall2_weaken {X Y} (R Q : X -> Y -> Prop) a b : (forall x y, R x y -> Q x y) -> Forall2 R a b -> Forall2 Q a b.
Proof. induction 2; auto. Qed.

Lemma Forall2_member {X Y} (R : X -> Y -> Prop) a b : Forall2 R a b -> Forall2 (fun x y => In x a /\ R x y) a b.
Proof. induction 1 as [|x y a b H F IH]; constructor; [split; [now left|auto]|]. revert IH. apply Forall2_weaken. intros u v [I H']. split; [now right|auto]. Qed.

Lemma callback_spec ow st b st' r : callback isnan draws ow prefix before st b = (st', r) ->
  exists seqs, f_i st' = f_i st + length seqs /\ f_ops st' = f_ops st ++ writes (f_i st) seqs /\ length seqs <= length b /\ Forall2 (stands_for b) (firstn (length seqs) b) seqs /\
    (r = Ok tt -> length seqs = length b).
Proof.
  unfold callback. destruct (replace_elements_w_nans isnan b None (draws (f_call st))) as [out|e] eqn:E.
  - destruct (save_all ow prefix before out (f_i st) (f_ops st)) as [[i os] r0] eqn:SA. intros Q. injection Q as <- <-. cbn [f_i f_ops].
    destruct (save_all_spec _ _ _ _ _ _ _ SA) as (k & L & -> & -> & R & _). pose proof (C42_result _ _ _ _ _ E) as F. pose proof (Forall2_length _ _ _ F) as LF.
    exists (firstn k out). rewrite firstn_length_le by lia. split; [lia|]. split; [reflexivity|]. split; [lia|]. split; [|intros Q; rewrite (R Q); lia].
    apply Forall2_firstn. apply Forall2_member in F. revert F. apply Forall2_weaken. intros x y (I & N & G & B). split; [exact N|]. split; [exact G|]. destruct (isnan x) eqn:NX.
    + destruct (B eq_refl) as (j & _ & Ej). eapply nth_error_In; eauto.
    + now rewrite (G eq_refl).
  - intros Q. injection Q as <- <-. exists []. cbn. unfold writes. cbn. rewrite app_nil_r. split; [lia|]. split; [reflexivity|]. split; [lia|]. split; [constructor|discriminate].
Qed.
Lemma feed_spec ow : forall batches st st' r, feed ow st batches = (st', r) ->
  exists seqs, f_ops st' = f_ops st ++ writes (f_i st) seqs /\ length seqs <= length (concat batches) /\
    Forall2 (stands_for (concat batches)) (firstn (length seqs) (concat batches)) seqs /\ (r = Ok tt -> length seqs = length (concat batches)).
Proof.
  induction batches as [|b batches IH]; intros st st' r H; cbn [feed] in H.
  - injection H as <- <-. exists []. unfold writes. cbn. rewrite app_nil_r. split; [reflexivity|]. split; [lia|]. split; [constructor|auto].
  - destruct (callback _ _ _ _ _ _ _) as [st1 r1] eqn:C. destruct (callback_spec _ _ _ _ _ C) as (s1 & I1 & O1 & L1 & F1 & K1). cbn [concat]. destruct r1 as [[]|e].
    + specialize (K1 eq_refl). destruct (IH _ _ _ H) as (s2 & O2 & L2 & F2 & K2). exists (s1 ++ s2). rewrite !app_length. rewrite O2, O1, I1, writes_app, app_assoc. split; [reflexivity|].
      split; [lia|]. split; [|intros Q; rewrite (K2 Q); lia]. rewrite K1, firstn_app_2. rewrite K1, firstn_all in F1. apply Forall2_app.
      * revert F1. apply Forall2_weaken. intros x y. apply stands_incl. intros z Z. apply in_or_app. now left.
      * revert F2. apply Forall2_weaken. intros x y. apply stands_incl. intros z Z. apply in_or_app. now right.
    + injection H as <- <-. exists s1. rewrite app_length. split; [exact O1|]. split; [lia|]. split; [|discriminate]. rewrite firstn_app. replace (length s1 - length b) with 0 by lia. cbn [firstn]. rewrite app_nil_r.
      revert F1. apply Forall2_weaken. intros x y. apply stands_incl. intros z Z. apply in_or_app. now left.
Qed.

(** The folder gets what the list of sequences gets. *)
Lemma calls_feed ow gen : forall c key d0 key' d, eager_calls split (fun data d => Ok (data ++ d)) gen c key d0 = Ok (key', d) ->
  exists batches, d = d0 ++ concat batches /\ forall st, folder_calls split isnan draws ow prefix before gen c key st = (let '(st', r) := feed ow st batches in (st', do _ <- r; Ok key')).
Proof.
  induction c as [|c IH]; intros key d0 key' d H; cbn [eager_calls] in H.
  - injection H as <- <-. exists []. rewrite app_nil_r. split; reflexivity.
  - cbn [folder_calls]. destruct (split key 2) as [|k1 [|k2 [|]]]; try discriminate. destruct (gen k2) as [b|e]; [|discriminate]. cbn [bind] in H.
    destruct (IH _ _ _ _ H) as (bs & -> & F). exists (b :: bs). cbn [concat feed]. rewrite app_assoc. split; [reflexivity|]. intros st. destruct (callback _ _ _ _ _ _ _) as [st1 [u|e]]; [apply F|reflexivity].
Qed.
Lemma run_feed ow : forall gens cs key d0 d, generators_eager split (fun data d => Ok (data ++ d)) gens cs key d0 = Ok d ->
  exists batches, d = d0 ++ concat batches /\ forall st, folder_run split isnan draws ow prefix before gens cs key st = feed ow st batches.
Proof.
  induction gens as [|g gens IH]; intros cs key d0 d H; cbn [generators_eager] in H; [injection H as <-; exists []; rewrite app_nil_r; split; reflexivity|].
  destruct cs as [|c cs]; [injection H as <-; exists []; rewrite app_nil_r; split; reflexivity|]. apply bind_Ok in H. destruct H as ([key' d1] & H1 & H). cbn [fst snd] in H.
  destruct (calls_feed ow g c key d0 key' d1 H1) as (b1 & -> & F1). destruct (IH _ _ _ _ H) as (b2 & -> & F2). exists (b1 ++ b2). rewrite concat_app, app_assoc. split; [reflexivity|].
  intros st. cbn [folder_run]. rewrite F1, feed_app. destruct (feed ow st b1) as [st1 [u|e]]; cbn [bind]; [apply F2|reflexivity].
Qed.
Lemma calls_listed ow gen : forall c key st st' key', folder_calls split isnan draws ow prefix before gen c key st = (st', Ok key') ->
  forall d0, exists d, eager_calls split (fun data d => Ok (data ++ d)) gen c key d0 = Ok (key', d).
Proof.
  induction c as [|c IH]; intros key st st' key' H d0; cbn [folder_calls eager_calls] in *; [injection H as <- <-; eauto|].
  destruct (split key 2) as [|k1 [|k2 [|]]]; try discriminate. destruct (gen k2) as [b|e]; [|discriminate]. cbn [bind]. destruct (callback _ _ _ _ _ _ _) as [st1 [u|e]]; [eapply IH; exact H|discriminate].
Qed.
Lemma run_listed ow : forall gens cs key st st', folder_run split isnan draws ow prefix before gens cs key st = (st', Ok tt) ->
  forall d0, exists d, generators_eager split (fun data d => Ok (data ++ d)) gens cs key d0 = Ok d.
Proof.
  induction gens as [|g gens IH]; intros cs key st st' H d0; cbn [folder_run generators_eager] in *; [eauto|]. destruct cs as [|c cs]; [eauto|].
  destruct (folder_calls _ _ _ _ _ _ g c key st) as [st1 [key'|e]] eqn:E; [|discriminate]. destruct (calls_listed _ _ _ _ _ _ _ E d0) as [d1 E1]. rewrite E1. cbn [bind fst snd]. eapply IH; exact H.
Qed.
Notation to_folder ow := (to_folder m split isnan draws ow prefix before).
Lemma to_folder_spec ow gens n sz key os r : to_folder ow gens n sz key = (os, r) ->
  (r = Ok tt -> exists data, to_list m split gens n sz key = Ok data) /\
  forall data, to_list m split gens n sz key = Ok data -> exists seqs, os = writes 0 seqs /\ length seqs <= length data /\
    Forall2 (stands_for data) (firstn (length seqs) data) seqs /\ (r = Ok tt -> length seqs = length data).
Proof.
  unfold M_Disk.to_folder, to_list. destruct (generators_ncalls m split gens n sz) as [[gs cs]|e]; cbn [fst snd bind].
  - destruct (folder_run _ _ _ _ _ _ gs cs key _) as [st r0] eqn:E. intros Q. injection Q as <- <-. split.
    + intros ->. eapply run_listed; exact E.
    + intros data H. destruct (run_feed ow _ _ _ _ _ H) as (bs & -> & F). cbn [app] in *. rewrite F in E. destruct (feed_spec _ _ _ _ _ E) as (seqs & O & L & S1 & K1). cbn [f_ops f_i app] in O. exists seqs. auto.
  - intros Q. injection Q as <- <-. split; [discriminate|]. intros data Q. discriminate.
Qed.

(** ** What the writes leave on disk *)
Lemma apply_ops_app (d : disk A) a b : apply_ops d (a ++ b) = apply_ops (apply_ops d a) b.
Proof. unfold apply_ops. apply fold_left_app. Qed.
Lemma writes_cons i s seqs : writes i (s :: seqs) = Open (target i) :: Fill (target i) s :: writes (S i) seqs.
Proof. reflexivity. Qed.
Lemma writes_other seqs : forall i d n, (forall j, i <= j -> j < i + length seqs -> n <> target j) -> same_file (apply_ops d (writes i seqs)) d n.
Proof.
  unfold same_file. induction seqs as [|s seqs IH]; intros i d n H; [reflexivity|]. rewrite writes_cons. cbn [length] in H. unfold apply_ops. cbn [fold_left apply_op].
  change (fold_left apply_op ?l ?d) with (apply_ops d l). rewrite IH by (intros j J1 J2; apply H; lia). rewrite !(dget_dset_other String.eqb eqs); [reflexivity|..]; apply (H i); lia.
Qed.
Lemma writes_at seqs : (forall j k, target j = target k -> j = k) -> forall i d k s, nth_error seqs k = Some s -> stored (apply_ops d (writes i seqs)) (target (i + k)) s.
Proof.
  intros INJ. unfold stored. induction seqs as [|x seqs IH]; intros i d k s E; [destruct k; discriminate|]. rewrite writes_cons. unfold apply_ops. cbn [fold_left apply_op].
  change (fold_left apply_op ?l ?d) with (apply_ops d l). destruct k as [|k]; cbn [nth_error] in E.
  - injection E as ->. rewrite Nat.add_0_r. rewrite (writes_other seqs (S i)) by (intros j J1 _ Q; apply INJ in Q; lia). apply (dget_dset_same String.eqb eqs).
  - rewrite <- Nat.add_succ_comm. now apply IH.
Qed.
Lemma writes_prefix seqs : forall i a b, writes i seqs = a ++ b ->
  exists k, k <= length seqs /\ (a = writes i (firstn k seqs) \/ (k < length seqs /\ a = writes i (firstn k seqs) ++ [Open (target (i + k))])).
Proof.
  induction seqs as [|s seqs IH]; intros i a b H.
  - unfold writes in H. cbn in H. symmetry in H. apply app_eq_nil in H. destruct H as [-> _]. exists 0. split; [lia|]. now left.
  - rewrite writes_cons in H. destruct a as [|o1 a]; [exists 0; split; [lia|]; now left|]. cbn [app] in H. injection H as <- H.
    destruct a as [|o2 a]; [exists 0; split; [lia|]; right; rewrite Nat.add_0_r; cbn; split; [lia|reflexivity]|]. cbn [app] in H. injection H as <- H.
    destruct (IH _ _ _ H) as (k & L & [-> | [L' ->]]); exists (S k); cbn [length firstn]; rewrite writes_cons; (split; [lia|]); [now left|right; split; [lia|]]. rewrite <- Nat.add_succ_comm. reflexivity.
Qed.
Lemma target_plain i : no_dot prefix -> target i = file_of prefix i.
Proof. intros N. unfold target, file_of. rewrite stem_plain by (apply no_dot_app; [exact N|apply str_nat_digits]). apply str_assoc. Qed.
Lemma target_inj : no_dot prefix -> forall j k, target j = target k -> j = k.
Proof. intros N j k. rewrite !target_plain by auto. apply file_of_inj. Qed.

(** Saving to a folder: the sequences of the list, in order, one file each under consecutive numbers; other files stay as they are. *)
Theorem C71_folder ow gens n sz key os : no_dot prefix -> to_folder ow gens n sz key = (os, Ok tt) ->
  exists data seqs, to_list m split gens n sz key = Ok data /\ Forall2 (stands_for data) data seqs /\
    (forall k s, nth_error seqs k = Some s -> stored (apply_ops before os) (file_of prefix k) s) /\
    (forall f, (forall k, k < length seqs -> f <> file_of prefix k) -> same_file (apply_ops before os) before f).
Proof.
  intros N H. destruct (to_folder_spec _ _ _ _ _ _ _ H) as [D F]. destruct (D eq_refl) as [data E]. destruct (F data E) as (seqs & -> & L & S1 & LE). specialize (LE eq_refl).
  exists data, seqs. split; [exact E|]. rewrite LE, firstn_all in S1. split; [exact S1|]. split.
  - intros k s K1. rewrite <- target_plain by auto. apply (writes_at seqs (target_inj N) 0 before k s K1).
  - intros f Hf. apply writes_other. intros j _ J. rewrite target_plain by auto. apply Hf. lia.
Qed.
(** Whenever it stops, be it by an exception or a crash at any moment: a number of sequences is on disk completely, at most the next file is torn, and
    all other files are as before. *)
Theorem C71_crash ow gens n sz key data os r don rest : no_dot prefix -> to_list m split gens n sz key = Ok data -> to_folder ow gens n sz key = (os, r) -> os = don ++ rest ->
  exists seqs, length seqs <= length data /\ Forall2 (stands_for data) (firstn (length seqs) data) seqs /\
    let now := apply_ops before don in
    (forall k s, nth_error seqs k = Some s -> stored now (file_of prefix k) s) /\
    (forall f, (forall k, k <= length seqs -> f <> file_of prefix k) -> same_file now before f) /\
    (same_file now before (file_of prefix (length seqs)) \/ dget String.eqb now (file_of prefix (length seqs)) = Some Torn).
Proof.
  intros N E H Hos. destruct (to_folder_spec _ _ _ _ _ _ _ H) as [_ F]. destruct (F data E) as (seqs & O & L & S1 & _). rewrite O in Hos.
  destruct (writes_prefix _ _ _ _ Hos) as (k & Lk & C). exists (firstn k seqs). rewrite firstn_length_le by lia. split; [lia|].
  split. { pose proof (Forall2_firstn _ _ _ k S1) as S2. rewrite firstn_firstn in S2. replace (Nat.min k (length seqs)) with k in S2 by lia. exact S2. }
  cbv zeta. destruct C as [-> | [Lk' ->]].
  - split; [|split].
    + intros j s Ej. rewrite <- target_plain by auto. apply (writes_at _ (target_inj N) 0 before j s Ej).
    + intros f Hf. apply writes_other. intros j _ J. rewrite firstn_length_le in J by lia. rewrite target_plain by auto. apply Hf. lia.
    + left. apply writes_other. intros j _ J. rewrite firstn_length_le in J by lia. rewrite target_plain by auto. intros Q. apply file_of_inj in Q. lia.
  - rewrite apply_ops_app. cbn [Nat.add]. unfold apply_ops at 1 3 5. cbn [fold_left apply_op]. split; [|split].
    + intros j s Ej. assert (J : j < k) by (pose proof (nth_error_Some (firstn k seqs) j) as X; rewrite firstn_length_le in X by lia; apply X; congruence).
      unfold stored. rewrite (dget_dset_other String.eqb eqs) by (rewrite target_plain by auto; intros Q; apply file_of_inj in Q; lia).
      rewrite <- target_plain by auto. apply (writes_at _ (target_inj N) 0 before j s Ej).
    + intros f Hf. unfold same_file. rewrite (dget_dset_other String.eqb eqs) by (rewrite target_plain by auto; apply Hf; lia). apply writes_other. intros j _ J. rewrite firstn_length_le in J by lia. rewrite target_plain by auto. apply Hf. lia.
    + right. rewrite target_plain by auto. apply (dget_dset_same String.eqb eqs).
Qed.

(** ** When saving succeeds *)
Hypothesis devices : 1 <= n_devices m.
Lemma ncalls_nonempty (gens : list (K -> list A)) n sz gs cs : (forall g k, In g gens -> g k <> []) -> generators_ncalls m split gens n sz = Ok (gs, cs) ->
  Forall (fun gg => forall k b, gg k = Ok b -> b <> []) gs.
Proof.
  intros NE H1. unfold generators_ncalls in H1. apply bind_Ok in H1. destruct H1 as (r & Hr & H1).
  apply bind_Ok in H1. destruct H1 as (rc & Hrc & H1). apply bind_Ok in H1. destruct H1 as (gs' & Hgs & H1). injection H1 as <- <-.
  destruct (repeats_spec _ _ _ _ Hr) as (Lr & Rq & Fr & Pn). apply mapM_Ok_iff in Hrc. apply mapM_Ok_iff in Hgs.
  pose proof (Forall2_length _ _ _ Hrc) as L1. rewrite combine_length, map_length, Nat.min_id in L1. pose proof (Forall2_length _ _ _ Hgs) as L2. rewrite combine_length, map_length, <- L1, Lr, Nat.min_id in L2.
  apply Forall_forall. intros gg I k b Hb. apply In_nth_error in I. destruct I as [i Hi].
  assert (Li : i < length gs') by (apply nth_error_Some; congruence).
  destruct (nth_error gens i) as [g|] eqn:Eg; [|apply nth_error_None in Eg; lia]. destruct (nth_error r i) as [rr|] eqn:Er; [|apply nth_error_None in Er; lia].
  destruct (nth_error rc i) as [x|] eqn:Ex; [|apply nth_error_None in Ex; lia].
  assert (P : 0 < fst x).
  { assert (HC : nth_error (combine (map (fun r => r * n) r) r) i = Some (rr * n, rr)) by (apply nth_error_combine; [rewrite nth_error_map, Er; reflexivity|exact Er]).
    pose proof (Forall2_nth_rel _ _ _ Hrc i _ _ HC Ex) as E. cbn [fst snd] in E. apply bind_Ok in E. destruct E as (e & He & E). apply bind_Ok in E. destruct E as (q & Hq & E). injection E as <-. cbn [fst snd].
    assert (Prr : 0 < rr) by (rewrite Forall_forall in Fr; apply Fr; eapply nth_error_In; eauto). assert (HL : 0 < n) by (apply Pn; assert (i < length r) by (apply nth_error_Some; congruence); lia).
    destruct (gcd_spec m devices e rr) as (g' & Egc & [w Q] & Pg). rewrite Hq in Egc. injection Egc as <-. assert (0 < q) by (apply Pg; eapply number_pos; [exact devices|..|exact He]; nia).
    subst rr. rewrite Nat.div_mul by lia. destruct w; lia. }
  assert (HC : nth_error (combine gens (map fst rc)) i = Some (g, fst x)) by (apply nth_error_combine; [exact Eg|rewrite nth_error_map, Ex; reflexivity]).
  pose proof (Forall2_nth_rel _ _ _ Hgs i _ _ HC Hi) as G. cbn [fst snd] in G.
  rewrite (lazy_produced m split split_length devices [g] [fst x] gg eq_refl (Forall_cons _ P (Forall_nil _)) G k) in Hb. injection Hb as <-.
  unfold produced, sum. cbn [cut fold_right combine map concat fst snd]. rewrite app_nil_r, Nat.add_0_r. rewrite firstn_all2 by (rewrite split_length; lia).
  pose proof (split_length k (fst x)) as SL. destruct (split k (fst x)) as [|k0 ks]; [cbn in SL; lia|]. cbn [map concat]. pose proof (NE g k0 (nth_error_In _ _ Eg)) as N0. destruct (g k0); [contradiction|discriminate].
Qed.
Lemma replace_clean (b : list A) dr : b <> [] -> Forall (fun x => isnan x = false) b -> replace_elements_w_nans isnan b None dr = Ok b.
Proof.
  intros NE F. unfold replace_elements_w_nans. assert (A0 : forallb (fun j => j <? length b) (seq 0 (length b)) = true) by (apply forallb_forall; intros j J; apply in_seq in J; apply Nat.ltb_lt; lia).
  assert (A1 : forallb isnan b = false) by (destruct b; [contradiction|]; inversion F as [|? ? E _]; subst; cbn; now rewrite E).
  assert (G : forall dd il, replace_loop isnan dd il b dr = Ok b).
  { intros dd il. clear NE A0 A1. revert dr. induction F as [|x b E F IH]; intros dr; cbn [replace_loop]; [reflexivity|]. rewrite E. cbn [bind snd fst]. rewrite IH. reflexivity. }
  destruct (seq 0 (length b)) as [|j l] eqn:Q; [destruct b; [contradiction|discriminate]|]. rewrite A0, A1. cbn [negb assert_ bind]. apply G.
Qed.
Lemma calls_clean gen : (forall k b, gen k = Ok b -> b <> []) -> forall c key d0 key' d st, eager_calls split (fun data d => Ok (data ++ d)) gen c key d0 = Ok (key', d) -> Forall (fun x => isnan x = false) d ->
  exists st', folder_calls split isnan draws true prefix before gen c key st = (st', Ok key').
Proof.
  intros NE. induction c as [|c IH]; intros key d0 key' d st H F; cbn [eager_calls folder_calls] in *; [injection H as <- <-; eauto|].
  destruct (split key 2) as [|k1 [|k2 [|]]]; try discriminate. destruct (gen k2) as [b|e] eqn:G; [|discriminate]. cbn [bind] in H.
  assert (FB : Forall (fun x => isnan x = false) b).
  { destruct (calls_feed true gen c k1 (d0 ++ b) key' d H) as (bs & -> & _). apply Forall_app in F. destruct F as [F _]. apply Forall_app in F. tauto. }
  unfold callback. rewrite (replace_clean b _ (NE _ _ G) FB). destruct (save_all true prefix before b (f_i st) (f_ops st)) as [[i os] r] eqn:SA. destruct (save_all_spec _ _ _ _ _ _ _ SA) as (? & _ & _ & _ & _ & ->); [|reflexivity]. eapply IH; eauto.
Qed.
Lemma run_clean : forall gens cs key d0 d st, Forall (fun gg => forall k b, gg k = Ok b -> b <> []) gens -> generators_eager split (fun data d => Ok (data ++ d)) gens cs key d0 = Ok d -> Forall (fun x => isnan x = false) d ->
  exists st', folder_run split isnan draws true prefix before gens cs key st = (st', Ok tt).
Proof.
  induction gens as [|g gens IH]; intros cs key d0 d st NE H F; cbn [generators_eager folder_run] in *; [eauto|]. destruct cs as [|c cs]; [eauto|].
  apply bind_Ok in H. destruct H as ([key' d1] & H1 & H). cbn [fst snd] in H. inversion NE; subst. destruct (run_feed true _ _ _ _ _ H) as (bs & -> & _). assert (F1 := F). apply Forall_app in F1. destruct F1 as [F1 _].
  destruct (calls_clean g ltac:(assumption) c key d0 key' d1 st H1 F1) as [st1 ->]. eapply IH; eauto.
Qed.
(** Saving succeeds if the list of sequences can be computed and all values are numbers. *)
Theorem C71_succeeds gens n sz key data : (forall g k, In g gens -> g k <> []) -> to_list m split gens n sz key = Ok data -> Forall (fun x => isnan x = false) data ->
  exists os, to_folder true gens n sz key = (os, Ok tt).
Proof.
  intros NE H F. unfold M_Disk.to_folder, to_list in *. destruct (generators_ncalls m split gens n sz) as [[gs cs]|e] eqn:G; [|discriminate]. cbn [fst snd bind] in *.
  destruct (run_clean gs cs key [] data (mkF 0 0 []) (ncalls_nonempty _ _ _ _ _ NE G) H F) as [st ->]. eauto.
Qed.

(** ** What goes wrong *)
Definition op_name (o : op A) : string := match o with Open n => n | Fill n _ => n end.
Lemma ops_other os : forall d n, Forall (fun o => op_name o <> n) os -> dget String.eqb (apply_ops d os) n = dget String.eqb d n.
Proof.
  induction os as [|o os IH]; intros d n F; [reflexivity|]. inversion F; subst. unfold apply_ops. cbn [fold_left]. change (fold_left apply_op ?l ?d) with (apply_ops d l). rewrite IH by auto.
  destruct o; cbn [apply_op op_name] in *; apply (dget_dset_other String.eqb eqs); auto.
Qed.
Lemma writes_names seqs : forall i, Forall (fun o => exists j, op_name o = target j) (writes i seqs).
Proof. induction seqs as [|s seqs IH]; intros i; [constructor|]. rewrite writes_cons. constructor; [cbn; eauto|]. constructor; [cbn; eauto|]. apply IH. Qed.
Section Overwrite.
Hypothesis N : no_dot prefix.
Hypothesis BARE : forall k, dget String.eqb before (prefix ++ str_nat k)%string = None.
Definition ours (os : list (op A)) : Prop := Forall (fun o => exists j, op_name o = target j) os.
Lemma save_all_same : forall ds i os, ours os -> save_all false prefix before ds i os = save_all true prefix before ds i os.
Proof.
  induction ds as [|d ds IH]; intros i os O; cbn [save_all]; [reflexivity|]. unfold parse_path at 1 2. cbn [negb andb].
  assert (X : is_file (apply_ops before os) (prefix ++ str_nat i) = false).
  { unfold is_file, dmem. rewrite ops_other; [now rewrite BARE|]. eapply Forall_impl; [|exact O]. intros o [j ->]. rewrite target_plain by auto. apply file_not_bare. }
  rewrite X. cbn [bind]. destruct (pickle_save (apply_ops before os) d (prefix ++ str_nat i) true) as [o|e] eqn:P; [|reflexivity]. apply IH. apply Forall_app. split; [exact O|].
  unfold pickle_save, parse_path in P. cbn in P. injection P as <-. apply Forall_cons; [exists i; reflexivity|]. apply Forall_cons; [exists i; reflexivity|apply Forall_nil].
Qed.
Lemma callback_same st b : ours (f_ops st) -> callback isnan draws false prefix before st b = callback isnan draws true prefix before st b /\ ours (f_ops (fst (callback isnan draws true prefix before st b))).
Proof.
  intros O. split.
  - unfold callback. destruct (replace_elements_w_nans _ _ _ _); [|reflexivity]. now rewrite save_all_same.
  - destruct (callback isnan draws true prefix before st b) as [st' r] eqn:E. destruct (callback_spec _ _ _ _ _ E) as (seqs & _ & EO & _). cbn [fst]. rewrite EO. apply Forall_app. split; [exact O|apply writes_names].
Qed.
Lemma calls_same gen : forall c key st, ours (f_ops st) -> folder_calls split isnan draws false prefix before gen c key st = folder_calls split isnan draws true prefix before gen c key st /\
  ours (f_ops (fst (folder_calls split isnan draws true prefix before gen c key st))).
Proof.
  induction c as [|c IH]; intros key st O; cbn [folder_calls]; [auto|]. destruct (split key 2) as [|k1 [|k2 [|]]]; auto. destruct (gen k2) as [b|e]; auto. destruct (callback_same st b O) as [-> O1].
  destruct (callback isnan draws true prefix before st b) as [st1 [u|e]]; [apply IH; exact O1|auto].
Qed.
Lemma run_same : forall gens cs key st, ours (f_ops st) -> folder_run split isnan draws false prefix before gens cs key st = folder_run split isnan draws true prefix before gens cs key st.
Proof.
  induction gens as [|g gens IH]; intros cs key st O; cbn [folder_run]; [reflexivity|]. destruct cs as [|c cs]; [reflexivity|]. destruct (calls_same g c key st O) as [-> O1].
  destruct (folder_calls _ _ _ true _ _ g c key st) as [st1 [k|e]]; [apply IH; exact O1|reflexivity].
Qed.
(** Asking not to overwrite has no effect: the name that is looked up lacks the extension of the file that is written. *)
Theorem C71_overwrite_refuted gens n sz key : to_folder false gens n sz key = to_folder true gens n sz key.
Proof. unfold M_Disk.to_folder. destruct (generators_ncalls m split gens n sz) as [[gs cs]|e]; [|reflexivity]. cbn [fst snd]. rewrite run_same; [reflexivity|constructor]. Qed.
End Overwrite.
(** A dot in the prefix: all sequences are written to the same file, and only the last one survives. *)
Lemma writes_one f seqs : forall i d s, (forall j, target j = f) -> stored (apply_ops d (writes i (seqs ++ [s]))) f s.
Proof.
  intros i d s T. rewrite writes_app, apply_ops_app. unfold writes, apply_ops at 1. cbn [enum_from flat_map fold_left fst snd app apply_op]. rewrite T. apply (dget_dset_same String.eqb eqs).
Qed.
Theorem C71_dots_refuted ow gens n sz key os a b : prefix = (a ++ "." ++ b)%string -> a <> "" -> no_dot b -> to_folder ow gens n sz key = (os, Ok tt) ->
  exists data seqs, to_list m split gens n sz key = Ok data /\ Forall2 (stands_for data) data seqs /\
    (forall s, nth_error seqs (length data - 1) = Some s -> stored (apply_ops before os) (a ++ ".pickle") s) /\
    forall f, f <> (a ++ ".pickle")%string -> same_file (apply_ops before os) before f.
Proof.
  intros P Na Nb H. assert (T : forall j, target j = (a ++ ".pickle")%string).
  { intros j. unfold target. rewrite P. f_equal. rewrite str_assoc, (str_assoc "." b). apply stem_dotted; [exact Na|..].
    - intros Q. pose proof (str_nat_nonempty j) as NE. destruct b; cbn in Q; [contradiction|discriminate].
    - apply no_dot_app; [exact Nb|apply str_nat_digits]. }
  destruct (to_folder_spec _ _ _ _ _ _ _ H) as [D F]. destruct (D eq_refl) as [data E]. destruct (F data E) as (seqs & -> & L & S1 & LE). specialize (LE eq_refl).
  exists data, seqs. split; [exact E|]. rewrite LE, firstn_all in S1. split; [exact S1|]. split.
  - intros s Es. destruct (exists_last (l := seqs)) as (l & x & ->); [intros ->; destruct (length data - 1); discriminate|].
    rewrite <- LE, app_length in Es. cbn [length] in Es. replace (length l + 1 - 1) with (length l) in Es by lia. rewrite nth_error_app2, Nat.sub_diag in Es by lia. injection Es as ->. now apply writes_one.
  - intros f Hf. apply writes_other. intros j _ _. now rewrite T.
Qed.
End Folder.

(** ** Reading back *)
Lemma load_pickle {A} (d : disk A) n a : no_dot n -> n <> "" -> stored d (n ++ ".pickle") a -> pickle_load d (n ++ ".pickle") = Ok a.
Proof.
  intros N NE S1. unfold pickle_load, parse_path, with_suffix. change (dotted "pickle") with ".pickle". cbn [negb andb]. change (n ++ ".pickle")%string with (n ++ "." ++ "pickle")%string.
  assert (ST : stem (n ++ "." ++ "pickle")%string = n) by (apply stem_dotted; [exact NE|discriminate|unfold no_dot; cbn; intuition discriminate]). rewrite ST.
  unfold is_file, dmem. unfold stored in S1. rewrite S1. cbn [assert_ bind]. now rewrite S1.
Qed.
Section Reload.
Context {K A : Type}.
Variable m : machine.
Variable split : K -> nat -> list K.
Variable isnan : A -> bool.
Variable draws : nat -> list nat.
(** A new folder, listed in any order, holds exactly the sequences of the list. *)
Theorem C71_reload ow prefix (gens : list (K -> list A)) n sz key os files : no_dot prefix ->
  to_folder m split isnan draws ow prefix [] gens n sz key = (os, Ok tt) -> lists (apply_ops [] os) files ->
  exists data seqs elems, to_list m split gens n sz key = Ok data /\ Forall2 (stands_for isnan data) data seqs /\
    dataset [(apply_ops [] os, files)] = Ok (length data) /\
    mapM (item [(apply_ops [] os, files)]) (seq 0 (length data)) = Ok (map (fun x => [x]) elems) /\ Permutation elems seqs.
Proof.
  intros N H [ND L]. destruct (C71_folder m split isnan draws prefix [] ow gens n sz key os N H) as (data & seqs & E & F & ST & OT). set (d := apply_ops [] os) in *.
  pose proof (Forall2_length _ _ _ F) as LE.
  assert (P : Permutation files (map (file_of prefix) (seq 0 (length seqs)))).
  { apply NoDup_Permutation; [exact ND|..].
    - apply FinFun.Injective_map_NoDup; [intros x y; apply file_of_inj|apply seq_NoDup].
    - intros f. rewrite L, in_map_iff. split.
      + intros [c Hc]. destruct (in_dec string_dec f (map (file_of prefix) (seq 0 (length seqs)))) as [I|I]; [apply in_map_iff in I; exact I|].
        exfalso. assert (X : same_file d [] f) by (apply OT; intros k Hk ->; apply I; apply in_map; apply in_seq; lia). unfold same_file in X. rewrite Hc in X. discriminate.
      + intros (k & <- & I). apply in_seq in I. destruct (nth_error seqs k) as [s|] eqn:Es; [|apply nth_error_None in Es; lia]. exists (Whole s). now apply ST. }
  assert (LD : forall k s, nth_error seqs k = Some s -> pickle_load d (file_of prefix k) = Ok s).
  { intros k s Es. unfold file_of. rewrite <- str_assoc. apply load_pickle.
    - apply no_dot_app; [exact N|apply str_nat_digits].
    - intros Q. pose proof (str_nat_nonempty k). destruct prefix; cbn in Q; [contradiction|discriminate].
    - rewrite str_assoc. now apply ST. }
  set (val := fun f => match pickle_load d f with Ok a => [a] | Err _ => [] end).
  assert (LF : length files = length data) by (rewrite (Permutation_length P), map_length, seq_length; lia).
  exists data, seqs, (flat_map val files). split; [exact E|]. split; [exact F|]. split; [unfold dataset; cbn [map snd nodup in_dec]; now rewrite LF|]. split.
  - assert (G : forall l, (forall f, In f l -> In f files) -> mapM (pickle_load d) l = Ok (flat_map val l)).
    { induction l as [|f l IH]; intros I; [reflexivity|]. cbn [mapM flat_map]. assert (If : In f files) by (apply I; now left). apply (Permutation_in _ P), in_map_iff in If. destruct If as (k & <- & Ik). apply in_seq in Ik.
      destruct (nth_error seqs k) as [s|] eqn:Es; [|apply nth_error_None in Es; lia]. unfold val at 1. rewrite (LD k s Es). cbn [bind]. rewrite IH by (intros; apply I; now right). reflexivity. }
    specialize (G files (fun _ x => x)). rewrite <- LF. clear - G. revert G. generalize (flat_map val files). intros es G. apply mapM_Ok_iff in G.
    apply mapM_Ok_iff. assert (X : forall pre, Forall2 (fun i x => item [(d, pre ++ files)] i = Ok x) (seq (length pre) (length files)) (map (fun x => [x]) es)).
    { induction G as [|f e fs es G F IH]; intros pre; [constructor|]. cbn [length seq map]. constructor.
      - unfold item. cbn [mapM snd fst]. rewrite nth_error_app2, Nat.sub_diag by lia. cbn [nth_error]. rewrite G. reflexivity.
      - specialize (IH (pre ++ [f])). rewrite app_length in IH. cbn [length] in IH. rewrite Nat.add_1_r, <- app_assoc in IH. exact IH. }
    exact (X []).
  - rewrite (Permutation_flat_map val P). assert (G : flat_map val (map (file_of prefix) (seq 0 (length seqs))) = seqs).
    { assert (X : forall ss i, (forall k s, nth_error ss k = Some s -> pickle_load d (file_of prefix (i + k)) = Ok s) -> flat_map val (map (file_of prefix) (seq i (length ss))) = ss).
      { induction ss as [|s ss IH]; intros i Hs; [reflexivity|]. cbn [length seq map flat_map]. unfold val at 1. pose proof (Hs 0 s eq_refl) as H0. rewrite Nat.add_0_r in H0. rewrite H0. cbn [app]. f_equal. apply IH. intros k x Ex. rewrite Nat.add_succ_comm. now apply Hs. }
      apply X. exact LD. }
    rewrite G. reflexivity.
Qed.
End Reload.
(** Several folders listed in the same order are read in step. *)
Theorem C71_paired {A} (ds : list (disk A)) files idx es : ds <> [] -> item (map (fun d => (d, files)) ds) idx = Ok es ->
  exists f, nth_error files idx = Some f /\ Forall2 (fun d e => pickle_load d f = Ok e) ds es.
Proof.
  unfold item. intros NE H. destruct ds as [|d ds]; [contradiction|]. apply mapM_Ok_iff in H. destruct (nth_error files idx) as [f|] eqn:E.
  - exists f. split; [reflexivity|]. revert es H. generalize (d :: ds). intros l. induction l as [|x l IH]; intros es H; inversion H; subst; constructor; [|auto]. cbn [fst snd] in *. now rewrite E in *.
  - inversion H as [|? ? ? ? X]; subst. cbn [snd] in X. rewrite E in X. discriminate.
Qed.
(** Listings may come in different orders; then files of different sequences are put together. *)
Theorem C71_pairing_refuted {A} (d1 d2 : disk A) f g a b : NoDup (map fst d1) -> NoDup (map fst d2) ->
  no_dot f -> f <> "" -> stored d1 (f ++ ".pickle") a -> no_dot g -> g <> "" -> stored d2 (g ++ ".pickle") b ->
  exists l1 l2, lists d1 l1 /\ lists d2 l2 /\ item [(d1, l1); (d2, l2)] 0 = Ok [a; b].
Proof.
  assert (G : forall (d : disk A) n x, NoDup (map fst d) -> stored d n x -> exists l, lists d (n :: l)).
  { intros d n x ND S1. apply dget_some_in in S1. assert (I : In n (map fst d)) by (apply in_map_iff; exists (n, Whole x); auto). apply in_split in I. destruct I as (l1 & l2 & E). exists (l1 ++ l2).
    assert (P : Permutation (map fst d) (n :: l1 ++ l2)) by (rewrite E; symmetry; apply Permutation_middle).
    split; [eapply Permutation_NoDup; eauto|]. intros k. split.
    - intros I. apply (Permutation_in _ (Permutation_sym P)) in I. apply in_map_iff in I. destruct I as ([k' c] & <- & I). exists c. now apply dget_nodup.
    - intros [c Hc]. apply dget_some_in in Hc. apply (Permutation_in _ P). apply in_map_iff. exists (k, c). auto. }
  intros N1 N2 Nf Ef S1 Ng Eg S2. destruct (G d1 _ a N1 S1) as [l1 L1]. destruct (G d2 _ b N2 S2) as [l2 L2]. exists ((f ++ ".pickle")%string :: l1), ((g ++ ".pickle")%string :: l2). split; [exact L1|]. split; [exact L2|].
  unfold item. cbn [mapM fst snd nth_error]. rewrite (load_pickle d1 f a Nf Ef S1), (load_pickle d2 g b Ng Eg S2). reflexivity.
Qed.
(** ** One file *)
Theorem C71_pickle {K A} m split (before : disk (list A)) ow name (gens : list (K -> list A)) n sz key os r : no_dot name ->
  to_pickle m split before ow name gens n sz key = (os, r) ->
  match r with
  | Ok _ => exists data, to_list m split gens n sz key = Ok data /\ stored (apply_ops before os) (name ++ ".pickle") data /\
              (ow = false -> dget String.eqb before (name ++ ".pickle")%string = None) /\
              forall f, f <> (name ++ ".pickle")%string -> same_file (apply_ops before os) before f
  | Err _ => os = [] /\ forall data, to_list m split gens n sz key = Ok data -> ow = false /\ dget String.eqb before (name ++ ".pickle")%string <> None
  end.
Proof.
  intros N H. unfold to_pickle in H. destruct (to_list m split gens n sz key) as [data|e] eqn:E; cbn [bind] in H.
  - unfold pickle_save, parse_path, with_suffix in H. change (dotted "pickle") with ".pickle" in H. rewrite (stem_plain name N) in H.
    unfold is_file, dmem in H. destruct (dget String.eqb before (name ++ ".pickle")%string) as [c|] eqn:G; destruct ow; cbn [negb andb bind] in H; injection H as <- <-.
    1,3,4: exists data; (split; [reflexivity|]); (split; [apply (dget_dset_same String.eqb String.eqb_eq)|]); (split; [first [discriminate|auto]|]);
       intros f Hf; unfold same_file, apply_ops; cbn [fold_left apply_op]; now rewrite !(dget_dset_other String.eqb String.eqb_eq) by auto.
    split; [reflexivity|]. intros d _. split; [reflexivity|discriminate].
  - injection H as <- <-. split; [reflexivity|]. discriminate.
Qed.

(** ** Examples *)
Definition ex_split (k n : nat) : list nat := map (fun i => 2 * k + i) (seq 1 n).
Definition ex_gens : list (nat -> list nat) := [(fun k => [k; k + 1]); (fun k => [2 * k; 2 * k + 1])].
(** Values divisible by eleven count as broken. *)
Definition ex_nan (x : nat) : bool := x mod 11 =? 0.
Definition ex_before : disk nat := [("seq1.pickle", Whole 5); ("notes.pickle", Whole 6)].
Definition ex_folder (ow : bool) (prefix : string) := to_folder (cpu 1) ex_split ex_nan (fun _ => [0; 2; 3]) ow prefix ex_before ex_gens 2 (Total 8) 3.
Definition ex_after (ow : bool) (prefix : string) : disk nat := apply_ops ex_before (fst (ex_folder ow prefix)).
Example C71_list_example : to_list (cpu 1) ex_split ex_gens 2 (Total 8) 3 = Ok [17; 18; 18; 19; 66; 67; 68; 69].
Proof. vm_compute. reflexivity. Qed.
(** Eight files; the broken sequence is replaced; an unrelated file stays, one with a number is overwritten although this was forbidden. *)
Example C71_folder_nonvacuous : snd (ex_folder false "seq") = Ok tt /\
  ex_after false "seq" = [("seq1.pickle", Whole 18); ("notes.pickle", Whole 6); ("seq0.pickle", Whole 17); ("seq2.pickle", Whole 18); ("seq3.pickle", Whole 19);
    ("seq4.pickle", Whole 68); ("seq5.pickle", Whole 67); ("seq6.pickle", Whole 68); ("seq7.pickle", Whole 69)].
Proof. split; vm_compute; reflexivity. Qed.
Example C71_dots_example : snd (ex_folder false "v1.2_") = Ok tt /\ ex_after false "v1.2_" = [("seq1.pickle", Whole 5); ("notes.pickle", Whole 6); ("v1.pickle", Whole 69)].
Proof. split; vm_compute; reflexivity. Qed.
Example C71_premises : no_dot "seq" /\ (forall k n, length (ex_split k n) = n) /\ 1 <= n_devices (cpu 1) /\ (forall k, dget String.eqb ex_before ("seq" ++ str_nat k)%string = None).
Proof.
  split; [unfold no_dot; cbn; intuition discriminate|]. split; [intros; unfold ex_split; now rewrite map_length, seq_length|]. split; [cbn; lia|].
  intros k. unfold ex_before. cbn [dget]. assert (X : forall t, no_dot t -> forall u, ("seq" ++ t)%string <> (u ++ ".pickle")%string).
  { intros t T u Q. assert (Y : In "."%char (list_ascii_of_string (u ++ ".pickle"))) by (rewrite chars_app; apply in_or_app; right; now left). rewrite <- Q in Y. cbn [String.append list_ascii_of_string In] in Y.
    destruct Y as [Y|[Y|[Y|Y]]]; try discriminate. now apply T. }
  destruct (String.eqb_spec ("seq" ++ str_nat k) "seq1.pickle") as [Q|_]; [exfalso; exact (X _ (str_nat_digits k) "seq1" Q)|].
  destruct (String.eqb_spec ("seq" ++ str_nat k) "notes.pickle") as [Q|_]; [exfalso; exact (X _ (str_nat_digits k) "notes" Q)|reflexivity].
Qed.
Example C71_reload_nonvacuous : let os := fst (to_folder (cpu 1) ex_split ex_nan (fun _ => [0; 1]) true "seq" [] ex_gens 2 (Total 4) 3) in
  lists (apply_ops [] os) ["seq3.pickle"; "seq0.pickle"; "seq2.pickle"; "seq1.pickle"].
Proof.
  cbv zeta. match goal with |- lists ?d _ => replace d with [("seq0.pickle", Whole 17); ("seq1.pickle", Whole 18); ("seq2.pickle", Whole 67); ("seq3.pickle", Whole 67)] end.
  - split; [repeat (apply NoDup_cons; [cbn [In]; intuition discriminate|]); apply NoDup_nil|]. intros n. split.
    + cbn [In]. intros [<-|[<-|[<-|[<-|[]]]]]; cbn; eauto.
    + intros [c H]. apply dget_some_in in H. cbn [In] in *. destruct H as [H|[H|[H|[H|[]]]]]; injection H as <- _; auto.
  - vm_compute. reflexivity.
Qed.
