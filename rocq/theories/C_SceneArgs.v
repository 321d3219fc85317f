(** * C97: the cameras and lights of a rendered scene over the life of a program. *)
From Coq Require Import String ZArith Lia Bool List.
From Verif Require Import Prelude M_SceneArgs.
Import ListNotations.
Local Open Scope string_scope.
Local Open Scope list_scope.

(** ** Specification: only the caller's own writes count *)
Section Spec.
Variables Args Scene : Type.
Variable build : Args -> list (Z * list string) -> list (Z * list string) -> Scene.
(** The scene asked for by each rendering, from what the caller wrote last into the dictionaries it passes. *)
Fixpoint asked_for (h : heap) (es : list (event Args)) : list Scene :=
  match es with
  | [] => []
  | Write x d :: r => asked_for (put h x d) r
  | Render a c l :: r => build a (contents (h c)) (contents (h l)) :: asked_for h r
  end.
(** The caller does not change a dictionary after it was passed to a rendering. *)
Fixpoint untouched (used : list nat) (es : list (event Args)) : Prop :=
  match es with
  | [] => True
  | Write x _ :: r => ~ In x used /\ untouched used r
  | Render _ c l :: r => untouched (c :: l :: used) r
  end.
Fixpoint written (h : heap) (es : list (event Args)) : heap :=
  match es with
  | [] => h
  | Write x d :: r => written (put h x d) r
  | Render _ _ _ :: r => written h r
  end.
End Spec.
Arguments asked_for {Args Scene}. Arguments untouched {Args}. Arguments written {Args}.

Lemma contents_to_list d : contents (to_list d) = contents d.
Proof. unfold contents, to_list. rewrite map_map. apply map_ext. now intros [k [s|l]]. Qed.
Lemma dic_eqb_eq a b : dic_eqb a b = true <-> a = b.
Proof. unfold dic_eqb. destruct (dic_dec a b); split; congruence. Qed.
Lemma put_same h x d : put h x d x = d. Proof. unfold put. now rewrite Nat.eqb_refl. Qed.
Lemma put_other h x d y : y <> x -> put h x d y = h y. Proof. intros N. unfold put. now apply Nat.eqb_neq in N as ->. Qed.
Lemma put_meaning h x y : contents (put h x (to_list (h x)) y) = contents (h y).
Proof. unfold put. destruct (Nat.eqb_spec y x) as [->|N]; [apply contents_to_list|reflexivity]. Qed.

Section C97.
Variables Args Scene : Type.
Variable args_eqb : Args -> Args -> bool.
Variable build : Args -> list (Z * list string) -> list (Z * list string) -> Scene.
(** Arguments that count as equal give the same scene. *)
Hypothesis EQ : forall a b, args_eqb a b = true -> forall c l, build a c l = build b c l.
Notation load := (load_scene Args Scene args_eqb build).
Notation run := (run Args Scene args_eqb build).
Notation start h := (@mkState Args Scene h None None).

Lemma load_meaning st a c l x : contents (st_heap (fst (load st a c l)) x) = contents (st_heap st x).
Proof.
  unfold load_scene. cbv zeta. destruct (match st_args st with Some _ => _ | None => _ end); [reflexivity|]. cbn [fst st_heap]. now rewrite !put_meaning.
Qed.
(** Rendering never changes what a dictionary means: keys, texts and their order stay, whatever the program does. *)
Theorem C97_meaning h es x : contents (st_heap (fst (run (start h) es)) x) = contents (written h es x).
Proof.
  assert (G : forall es st h, (forall x, contents (st_heap st x) = contents (h x)) -> forall x, contents (st_heap (fst (run st es)) x) = contents (written h es x)).
  { clear. induction es as [|[x d|a c l] es IH]; intros st h H y; cbn [M_SceneArgs.run written]; [apply H|..].
    - apply IH. intros z. cbn [st_heap]. unfold put. destruct (Nat.eqb z x); auto.
    - pose proof (load_meaning st a c l) as M. destruct (load st a c l) as [st' s]. cbn [fst] in M.
      specialize (IH st' h ltac:(intros z; rewrite M; apply H) y). destruct (run st' es) as [st2 ss]. exact IH. }
  apply G. reflexivity.
Qed.

(** What the module variables remember is a scene of what the remembered dictionaries say. *)
Definition remembers (st : state Args Scene) (used : list nat) : Prop :=
  match st_args st with
  | None => True
  | Some (a, c, l) => In c used /\ In l used /\ st_scene st = Some (build a (contents (st_heap st c)) (contents (st_heap st l)))
  end.
Lemma load_right st used a c l : remembers st used ->
  snd (load st a c l) = Some (build a (contents (st_heap st c)) (contents (st_heap st l))) /\ remembers (fst (load st a c l)) (c :: l :: used).
Proof.
  intros Rm. unfold load_scene. cbv zeta. destruct (match st_args st with Some _ => _ | None => _ end) eqn:E.
  - cbn [fst snd]. unfold remembers in *. destruct (st_args st) as [[[a' c'] l']|]; [|discriminate]. destruct Rm as (I1 & I2 & Hs).
    apply andb_true_iff in E. destruct E as [E E3]. apply andb_true_iff in E. destruct E as [E1 E2]. apply dic_eqb_eq in E2, E3.
    split; [|split; [|split]]; cbn [In]; auto. rewrite Hs, E2, E3. f_equal. now apply EQ.
  - cbn [fst snd]. split; [now rewrite !put_meaning|]. unfold remembers. cbn [st_args st_scene st_heap In]. auto 6.
Qed.
(** Every rendering shows the cameras and lights asked for, if dictionaries are not changed after use. *)
Theorem C97_scene h es : untouched [] es -> snd (run (start h) es) = map Some (asked_for build h es).
Proof.
  assert (G : forall es st h used, (forall x, contents (st_heap st x) = contents (h x)) -> remembers st used -> untouched used es ->
    snd (run st es) = map Some (asked_for build h es)).
  { clear h es. induction es as [|[x d|a c l] es IH]; intros st h used M Rm U; cbn [M_SceneArgs.run asked_for map untouched] in *; [reflexivity|..].
    - destruct U as [NI U]. apply (IH _ _ used); auto.
      + intros z. cbn [st_heap]. unfold put. destruct (Nat.eqb z x); auto.
      + unfold remembers in *. cbn [st_args st_scene st_heap]. destruct (st_args st) as [[[a' c'] l']|]; [|exact Rm]. destruct Rm as (I1 & I2 & Hs).
        rewrite !put_other by (intros ->; contradiction). auto.
    - destruct (load_right st used a c l Rm) as [L Rm']. pose proof (load_meaning st a c l) as LM. destruct (load st a c l) as [st' s]. cbn [fst snd] in *.
      specialize (IH st' h (c :: l :: used) ltac:(intros z; rewrite LM; apply M) Rm' U). destruct (run st' es) as [st2 ss]. cbn [snd] in *. now rewrite IH, L, !M. }
  intros U. apply (G es _ h []); [reflexivity|exact Logic.I|exact U].
Qed.
(** "A rendering shows the cameras now in the dictionary" is false once it is changed: passing the same dictionaries again always gives
    the old scene, whatever was written into them. *)
Theorem C97_changed_refuted st a c l d : args_eqb a a = true -> st_args st = Some (a, c, l) ->
  snd (load (mkState (put (st_heap st) c d) (st_args st) (st_scene st)) a c l) = st_scene st.
Proof.
  intros Ra E. unfold load_scene. cbn [st_heap st_args st_scene]. rewrite E, Ra. cbv zeta. rewrite !(proj2 (dic_eqb_eq _ _) eq_refl). reflexivity.
Qed.
(** "Rendering leaves the caller's dictionary as it is" is false: every text becomes a list of one text. *)
Theorem C97_argument_refuted h a c l : st_heap (fst (load (start h) a c l)) c = to_list (h c) /\ (exists d, to_list d <> d).
Proof.
  split; [|exists [(0%Z, Str "x")]; discriminate]. unfold load_scene. cbn [st_args st_heap fst]. unfold put. rewrite Nat.eqb_refl.
  destruct (Nat.eqb_spec c l) as [->|N]; [|reflexivity]. rewrite Nat.eqb_refl. unfold to_list. rewrite map_map. apply map_ext. now intros [k [s|t]].
Qed.
(** Afterwards it can be passed again, and nothing changes any more. *)
Theorem C97_settled d : to_list (to_list d) = to_list d.
Proof. unfold to_list. rewrite map_map. apply map_ext. now intros [k [s|t]]. Qed.
End C97.

(** Address 0 holds the default lights.  The first program never changes a used dictionary; the second changes one and sees the old camera. *)
Definition light0 : dic := [((-1)%Z, Str "<light/>")].
Definition demo_build (a : nat) (c l : list (Z * list string)) := (a, c, l).
Example C97_example : let h : heap := fun x => if Nat.eqb x 0 then light0 else [] in
  let go := run nat _ Nat.eqb demo_build (mkState h None None) in
  let p := [Write 1%nat [(2%Z, Str "<camera/>")]; Render 7%nat 1%nat 0%nat; Render 7%nat 1%nat 0%nat; Write 2%nat [(3%Z, Strs ["a"; "b"])]; Render 7%nat 2%nat 0%nat] in
  let q := [Write 1%nat [(2%Z, Str "<camera/>")]; Render 7%nat 1%nat 0%nat; Write 1%nat [(3%Z, Str "b")]; Render 7%nat 1%nat 0%nat] in
  (forall a b, Nat.eqb a b = true -> forall c l, demo_build a c l = demo_build b c l) /\
  untouched [] p /\ snd (go p) = map Some (asked_for demo_build h p) /\ length (asked_for demo_build h p) = 3%nat /\
  snd (go q) <> map Some (asked_for demo_build h q).
Proof.
  cbv zeta. split; [intros a b E; apply Nat.eqb_eq in E; now subst|]. split; [cbn [untouched In]; intuition lia|]. split; [reflexivity|]. split; [reflexivity|]. discriminate.
Qed.
