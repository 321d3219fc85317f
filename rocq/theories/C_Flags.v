(** * C85: setting the number of host devices replaces earlier settings and keeps all other flags. *)
From Coq Require Import Ascii String ZArith Lia Bool Arith List.
From Verif Require Import Prelude M_Flags S_Flags.
Import ListNotations.
Local Open Scope list_scope. Local Open Scope nat_scope.

Lemma prefix_of_iff p : forall s r, prefix_of p s = Some r <-> s = p ++ r.
Proof.
  induction p as [|a p IH]; intros s r; cbn [prefix_of app]; [split; congruence|]. destruct s as [|b s]; [split; discriminate|].
  destruct (Ascii.eqb_spec a b) as [->|N]; [rewrite IH; split; congruence|split; congruence].
Qed.

Section Flags.
Variable space : ascii -> bool.
(** A blank separates; the characters of the flag do not. *)
Hypothesis sp_blank : space " "%char = true.
Hypothesis sp_flag : Forall (fun c => space c = false) flag.
Notation nospace := (Forall (fun c => space c = false)).
Notation word := (word space).
Notation reads := (reads space).
Notation boundary := (boundary space).
Notation matches_here := (matches_here space).
Notation re_sub := (re_sub space).
Notation split := (split space).
Notation set := (set_host_device_count space).

Lemma matches_iff s : matches_here s = true <-> exists c r, space c = false /\ s = flag ++ c :: r.
Proof.
  unfold M_Flags.matches_here. destruct (prefix_of flag s) as [[|c r]|] eqn:E.
  - split; [discriminate|]. intros (c & r & _ & X). apply prefix_of_iff in X. congruence.
  - apply prefix_of_iff in E. subst s. rewrite negb_true_iff. split; [eauto|]. intros (c' & r' & S & X). apply app_inv_head in X. congruence.
  - split; [discriminate|]. intros (c & r & _ & X). apply prefix_of_iff in X. congruence.
Qed.
Lemma app_split : forall p w c r rest, nospace p -> space c = false -> boundary rest -> w ++ rest = p ++ c :: r -> exists r', w = p ++ c :: r'.
Proof.
  induction p as [|a p IH]; intros w c r rest P C B E.
  - cbn in E. destruct w as [|b w]; [cbn in E; subst rest; cbn in B; congruence|]. cbn in E. injection E as -> _. eexists. reflexivity.
  - inversion P; subst. destruct w as [|b w]; [cbn in E; subst rest; cbn in B; congruence|]. cbn in E. injection E as -> E. destruct (IH w c r rest) as (r' & ->); auto. eexists. reflexivity.
Qed.
Lemma matches_word w rest : boundary rest -> matches_here (w ++ rest) = matches_here w.
Proof.
  intros B. apply eq_true_iff_eq. rewrite !matches_iff. split.
  - intros (c & r & C & E). destruct (app_split flag w c r rest sp_flag C B E) as (r' & ->). eauto.
  - intros (c & r & C & ->). exists c, (r ++ rest). split; [exact C|]. now rewrite <- app_assoc.
Qed.
(** What is left of a word: everything before the first setting. *)
Fixpoint cut (w : text) : text := match w with [] => [] | c :: r => if matches_here w then [] else c :: cut r end.
Lemma sub_skip w rest : nospace w -> boundary rest -> re_sub true (w ++ rest) = re_sub false rest.
Proof.
  intros W B. induction W as [|c w C W IH]; cbn [app M_Flags.re_sub].
  - destruct rest as [|c r]; [reflexivity|]. cbn in B. cbn [M_Flags.re_sub]. rewrite B. reflexivity.
  - rewrite C. cbn [negb andb orb]. exact IH.
Qed.
Lemma sub_word w rest : nospace w -> boundary rest -> re_sub false (w ++ rest) = cut w ++ re_sub false rest.
Proof.
  intros W B. induction W as [|c w C W IH]; [reflexivity|]. change ((c :: w) ++ rest) with (c :: (w ++ rest)). cbn [M_Flags.re_sub andb orb cut].
  change (c :: w ++ rest) with ((c :: w) ++ rest). rewrite matches_word by exact B. destruct (matches_here (c :: w)); [now apply sub_skip|]. now rewrite IH.
Qed.
Lemma matches_space c r : space c = true -> matches_here (c :: r) = false.
Proof.
  intros C. destruct (matches_here (c :: r)) eqn:M; [|reflexivity]. apply matches_iff in M. destruct M as (c' & r' & _ & E). exfalso.
  pose proof sp_flag as F. destruct flag as [|f fl] eqn:EF; [discriminate EF|]. cbn in E. injection E as -> _. inversion F; subst. congruence.
Qed.
Lemma sub_blank sp rest : blank space sp -> re_sub false (sp ++ rest) = sp ++ re_sub false rest.
Proof. intros B. induction B as [|c sp C B IH]; [reflexivity|]. cbn [app M_Flags.re_sub andb orb]. rewrite matches_space by exact C. now rewrite IH. Qed.
Lemma sub_boundary rest : boundary rest -> boundary (re_sub false rest).
Proof. destruct rest as [|c r]; [auto|]. intros B. cbn in B. cbn [M_Flags.re_sub andb orb]. rewrite matches_space by exact B. exact B. Qed.

Lemma split_blank sp rest : blank space sp -> split [] (sp ++ rest) = split [] rest.
Proof. intros B. induction B as [|c sp C B IH]; [reflexivity|]. cbn [app M_Flags.split]. now rewrite C. Qed.
Lemma split_chars : forall w pre rest, nospace w -> split pre (w ++ rest) = split (pre ++ w) rest.
Proof.
  induction w as [|c w IH]; intros pre rest W; [now rewrite app_nil_r|]. inversion W as [|? ? C W']; subst. cbn [app M_Flags.split]. rewrite C, IH by exact W'. now rewrite <- app_assoc.
Qed.
Lemma split_word w rest : nospace w -> boundary rest -> split [] (w ++ rest) = match w with [] => split [] rest | _ => w :: split [] rest end.
Proof.
  intros W B. rewrite split_chars by exact W. cbn [app]. destruct w as [|c w]; [reflexivity|]. destruct rest as [|d r]; [reflexivity|]. cbn in B. cbn [M_Flags.split]. now rewrite B.
Qed.
Lemma reads_split s ws : reads s ws -> split [] s = ws.
Proof.
  intros R. induction R as [s B|sp w rest ws SP W B R IH].
  - rewrite <- (app_nil_r s), split_blank by exact B. reflexivity.
  - rewrite split_blank, split_word by (exact SP || apply W || exact B). destruct w; [now destruct (proj1 W)|]. now rewrite IH.
Qed.
(** Every text can be read, in one way. *)
Lemma reads_total : forall k s, length s <= k -> exists ws, reads s ws.
Proof.
  induction k as [|k IH]; intros s L.
  - destruct s; [|cbn in L; lia]. exists []. constructor. constructor.
  - assert (SP : exists sp r, s = sp ++ r /\ blank space sp /\ match r with [] => True | c :: _ => space c = false end).
    { clear. induction s as [|c s (sp & r & -> & B & C)]; [exists [], []; repeat split; constructor|]. destruct (space c) eqn:E.
      - exists (c :: sp), r. split; [reflexivity|]. split; [now constructor|exact C].
      - exists [], (c :: sp ++ r). split; [reflexivity|]. split; [constructor|exact E]. }
    destruct SP as (sp & r & -> & B & C). destruct r as [|c r]; [exists []; constructor; now rewrite app_nil_r|].
    assert (WD : exists w t, r = w ++ t /\ nospace w /\ boundary t).
    { clear. induction r as [|d r (w & t & -> & W & T)]; [exists [], []; repeat split; constructor|]. destruct (space d) eqn:E.
      - exists [], (d :: w ++ t). split; [reflexivity|]. split; [constructor|exact E].
      - exists (d :: w), t. split; [reflexivity|]. split; [now constructor|exact T]. }
    destruct WD as (w & t & -> & W & T). destruct (IH t) as (ws & R). { rewrite app_length in L. cbn in L. rewrite app_length in L. lia. }
    exists ((c :: w) :: ws). change (sp ++ c :: w ++ t) with (sp ++ (c :: w) ++ t). constructor; auto. split; [discriminate|now constructor].
Qed.
Lemma sub_reads s ws : reads s ws -> split [] (re_sub false s) = filter (fun w => negb (length w =? 0)) (map cut ws).
Proof.
  intros R. induction R as [s B|sp w rest ws SP W B R IH].
  - rewrite <- (app_nil_r s), sub_blank, split_blank by exact B. reflexivity.
  - rewrite sub_blank, sub_word by (exact SP || apply W || exact B).
    assert (WC : nospace (cut w)). { destruct W as [_ W]. clear -W. induction W as [|c w C W IH]; [constructor|]. cbn [cut]. destruct (matches_here (c :: w)); constructor; auto. }
    rewrite split_blank by exact SP. rewrite split_word by (exact WC || now apply sub_boundary). cbn [map filter]. rewrite IH. destruct (cut w); reflexivity.
Qed.
Lemma reads_blank c s ws : space c = true -> reads s ws -> reads (c :: s) ws.
Proof.
  intros C R. destruct R as [s B|sp w rest ws SP W B R].
  - constructor. now constructor.
  - change (c :: sp ++ w ++ rest) with ((c :: sp) ++ w ++ rest). constructor; auto. now constructor.
Qed.
Lemma reads_join ws : Forall word ws -> reads (join ws) ws.
Proof.
  intros F. induction F as [|w ws W F IH]; [constructor; constructor|]. destruct ws as [|w2 ws].
  - cbn [join]. replace w with ([] ++ w ++ []) at 1 by now rewrite app_nil_r. constructor; [constructor|exact W|exact Logic.I|]. constructor. constructor.
  - change (join (w :: w2 :: ws)) with ([] ++ w ++ ([" "%char] ++ join (w2 :: ws))). constructor; [constructor|exact W|exact sp_blank|].
    now apply reads_blank.
Qed.

Lemma cut_prefix w : exists z, w = cut w ++ z.
Proof. induction w as [|c w (z & E)]; [exists []; reflexivity|]. cbn [cut]. destruct (matches_here (c :: w)); [exists (c :: w); reflexivity|]. exists z. cbn. now rewrite <- E. Qed.
Lemma cut_no_setting w : nospace w -> ~ has_setting (cut w).
Proof.
  intros W (pre & v & NV & E). revert pre E. induction W as [|c w C W IH]; intros pre E.
  - cbn [cut] in E. symmetry in E. apply app_eq_nil in E. destruct E as [_ E]. apply app_eq_nil in E. destruct E as [_ E]. exact (NV E).
  - cbn [cut] in E. destruct (matches_here (c :: w)) eqn:M.
    + symmetry in E. apply app_eq_nil in E. destruct E as [_ E]. apply app_eq_nil in E. destruct E as [_ E]. exact (NV E).
    + destruct pre as [|p pre]; [|cbn [app] in E; injection E as _ E; now apply (IH pre)].
      cbn [app] in E. destruct (cut_prefix w) as (z & Z). destruct v as [|d v]; [congruence|].
      assert (M' : matches_here (c :: w) = true); [|congruence]. apply matches_iff. exists d, (v ++ z).
      assert (EW : c :: w = flag ++ d :: v ++ z). { rewrite Z at 1. change (c :: cut w ++ z) with ((c :: cut w) ++ z). rewrite E, <- app_assoc. reflexivity. }
      split; [|exact EW]. assert (F : nospace (c :: w)) by now constructor. rewrite EW in F. apply Forall_app in F. destruct F as [_ F]. now inversion F.
Qed.
Lemma cut_id w : ~ has_setting w -> cut w = w.
Proof.
  intros H. induction w as [|c w IH]; [reflexivity|]. cbn [cut]. destruct (matches_here (c :: w)) eqn:M.
  - exfalso. apply matches_iff in M. destruct M as (d & r & _ & E). apply H. exists [], (d :: r). split; [discriminate|exact E].
  - f_equal. apply IH. intros (pre & v & NV & ->). apply H. exists (c :: pre), v. split; [exact NV|reflexivity].
Qed.
Lemma cut_setting w : nospace w -> setting w -> cut w = [].
Proof.
  intros W (v & NV & ->). destruct v as [|d v]; [congruence|]. assert (M : matches_here (flag ++ d :: v) = true).
  { apply matches_iff. exists d, v. split; [|reflexivity]. apply Forall_app in W. destruct W as [_ W]. now inversion W. }
  unfold flag in *. cbn [list_ascii_of_string app] in *. cbn [cut]. now rewrite M.
Qed.

Definition old_text (s : option text) : text := match s with Some s => s | None => [] end.
Lemma reads_words s ws : reads s ws -> Forall word ws.
Proof. intros R. induction R; constructor; auto. Qed.
Lemma kept_words ws : Forall word ws -> Forall word (filter (fun w => negb (length w =? 0)) (map cut ws)).
Proof.
  intros F. apply Forall_forall. intros x I. apply filter_In in I. destruct I as [I N]. apply in_map_iff in I. destruct I as (w & <- & I). rewrite Forall_forall in F.
  destruct (F w I) as [_ W]. split; [intros X; rewrite X in N; discriminate|]. destruct (cut_prefix w) as (z & Z). rewrite Z in W. apply Forall_app in W. apply W.
Qed.
Lemma set_reads s n ws : word n -> reads (old_text s) ws -> reads (set s n) ((flag ++ n) :: filter (fun w => negb (length w =? 0)) (map cut ws)).
Proof.
  intros [N1 N2] R. unfold set_host_device_count. fold (old_text s). rewrite (sub_reads _ _ R). apply reads_join. constructor; [|apply kept_words; eapply reads_words; exact R].
  split; [|apply Forall_app; split; [exact sp_flag|exact N2]]. intros X. apply app_eq_nil in X. now destruct X.
Qed.

(** The new flags: the setting first, then all other flags of the old value in their order. *)
Theorem C85_flags s n ws : word n -> reads (old_text s) ws -> (forall w, In w ws -> setting w \/ ~ has_setting w) ->
  exists others, reads (set s n) ((flag ++ n) :: others) /\
    (forall w, In w others <-> In w ws /\ ~ setting w) /\ (exists keep, others = filter keep ws).
Proof.
  intros N R H. pose proof (set_reads s n ws N R) as G. pose proof (reads_words _ _ R) as F.
  set (keep := fun w : text => negb (length (cut w) =? 0)).
  assert (E : filter (fun w => negb (length w =? 0)) (map cut ws) = filter keep ws).
  { rewrite Forall_forall in F. clear R G. induction ws as [|w ws IH]; [reflexivity|]. cbn [map filter]. unfold keep at 1.
    assert (W : word w) by (apply F; now left). rewrite IH by (intros; (apply H || apply F); now right).
    destruct (H w (or_introl eq_refl)) as [S|S]; [rewrite (cut_setting w (proj2 W) S); reflexivity|]. now rewrite (cut_id w S). }
  rewrite E in G. exists (filter keep ws). split; [exact G|]. split; [|eauto]. intros w. rewrite filter_In. unfold keep.
  split; intros [I K]; split; try exact I.
  - intros S. rewrite Forall_forall in F. rewrite (cut_setting w (proj2 (F w I)) S) in K. discriminate.
  - destruct (H w I) as [S|S]; [contradiction|]. rewrite (cut_id w S). rewrite Forall_forall in F. destruct (F w I) as [NE _]. destruct w; [congruence|reflexivity].
Qed.
(** Whatever was there before, no other setting is left. *)
Theorem C85_only s n : word n -> exists others, reads (set s n) ((flag ++ n) :: others) /\ forall w, In w others -> ~ has_setting w.
Proof.
  intros N. destruct (reads_total (length (old_text s)) (old_text s) (le_n _)) as (ws & R). pose proof (reads_words _ _ R) as F. eexists. split; [apply (set_reads s n ws N R)|].
  intros w I. apply filter_In in I. destruct I as [I _]. apply in_map_iff in I. destruct I as (w0 & <- & I). rewrite Forall_forall in F. apply cut_no_setting. apply (F w0 I).
Qed.
(** The last call counts: an earlier one leaves no trace. *)
Theorem C85_override s n k : word n -> set (Some (set s n)) k = set s k.
Proof.
  intros N. destruct (reads_total (length (old_text s)) (old_text s) (le_n _)) as (ws & R). pose proof (set_reads s n ws N R) as G. pose proof (reads_words _ _ R) as F.
  unfold set_host_device_count at 1. rewrite (sub_reads _ _ G). unfold set_host_device_count. fold (old_text s). rewrite (sub_reads _ _ R). do 2 f_equal.
  cbn [map filter]. rewrite cut_setting; [|apply (Forall_inv (reads_words _ _ G))|exists n; split; [apply N|reflexivity]]. cbn [length Nat.eqb negb].
  rewrite Forall_forall in F. clear R G. induction ws as [|w ws IH]; [reflexivity|]. cbn [map filter].
  assert (W : word w) by (apply F; now left). destruct (Nat.eqb_spec (length (cut w)) 0) as [Z|Z]; cbn [negb]; [apply IH; intros; apply F; now right|].
  cbn [map filter]. rewrite (cut_id (cut w)) by (apply cut_no_setting; apply W). destruct (Nat.eqb_spec (length (cut w)) 0); [contradiction|]. cbn [negb].
  f_equal. apply IH. intros; apply F; now right.
Qed.
Theorem C85_reading s : exists ws, reads s ws /\ forall ws', reads s ws' -> ws' = ws.
Proof. destruct (reads_total (length s) s (le_n _)) as (ws & R). exists ws. split; [exact R|]. intros ws' R'. apply reads_split in R, R'. congruence. Qed.
End Flags.

(** A blank and a tab separate words; an old setting in the middle is replaced. *)
Definition flags_space (c : ascii) : bool := (nat_of_ascii c =? 32) || (nat_of_ascii c =? 9).
Example C85_example :
  string_of_list_ascii (set_host_device_count flags_space (Some (list_ascii_of_string "--a=1   --xla_force_host_platform_device_count=4 --b"))
    (list_ascii_of_string "8")) = "--xla_force_host_platform_device_count=8 --a=1 --b"%string /\
  flags_space " "%char = true /\ Forall (fun c => flags_space c = false) flag.
Proof. split; [vm_compute; reflexivity|]. split; [reflexivity|]. unfold flag. cbn. repeat constructor. Qed.
(** A setting with an empty value is kept, and a word that contains a setting loses its end. *)
Theorem C85_words_refuted :
  string_of_list_ascii (set_host_device_count flags_space (Some (list_ascii_of_string "--xla_force_host_platform_device_count= --dir=/x--xla_force_host_platform_device_count=4"))
    (list_ascii_of_string "8")) = "--xla_force_host_platform_device_count=8 --xla_force_host_platform_device_count= --dir=/x"%string.
Proof. vm_compute. reflexivity. Qed.
Print Assumptions C85_override.
