(** * C79: the bodies of the MuJoCo model, the scene that is used and the frames that are returned. *)
From Coq Require Import String ZArith Lia Bool List.
From Verif Require Import Prelude M_Sys S_Sys P_Sys M_Render.
Import ListNotations.
Local Open Scope Z_scope.

Section Bodies.
Context {G Cam : Type}.

Lemma group_loop (gs : list (Z * G)) : forall parent groups, sortedb_from gs -> (forall i g, In (i, g) gs -> parent <= i) ->
  exists p, foldM (fun '(parent, groups) '(i, g) =>
              do p <- next_parent parent i; Ok (p, append_geom groups p g)) (parent, groups) gs
            = Ok (p, map (fun '(k, l) => (k, l ++ attached k gs)) groups).
Proof.
  induction gs as [|[i g] r IH]; intros parent groups S B.
  - exists parent. cbn. do 2 f_equal. rewrite <- (map_id groups) at 1. apply map_ext. intros [k l]. now rewrite app_nil_r.
  - cbn [foldM bind]. unfold next_parent.
    assert (L : parent <=? i = true) by (apply Z.leb_le; apply (B i g); now left). rewrite L. cbn [bind].
    destruct S as [S1 S2]. destruct (IH i (append_geom groups i g) S2) as (p & E); [exact S1|].
    exists p. unfold next_parent in E. rewrite E. do 2 f_equal. unfold append_geom. rewrite map_map. apply map_ext. intros [k l]. cbn [attached].
    destruct (Z.eqb_spec k i) as [->|N].
    + destruct (Z.eq_dec i i); [|congruence]. now rewrite <- app_assoc.
    + destruct (Z.eq_dec i k); [congruence | reflexivity].
Qed.

Lemma has_parent_iff (gs : list (Z * G)) i : has_parent gs i = true <-> exists g, In (i, g) gs.
Proof.
  unfold has_parent. rewrite existsb_exists. split.
  - intros ((k, g) & H & E). apply Z.eqb_eq in E. cbn in E. subst. eauto.
  - intros (g & H). exists (i, g). split; [exact H | apply Z.eqb_refl].
Qed.

(** A camera or light can be attached to a link with a geometry, or to the world. *)
Definition attachable (gs : list (Z * G)) (i : Z) : Prop := i = -1 \/ exists g, In (i, g) gs.
(** Those which go directly into the world body: the ones of the world, if it has no geometry. *)
Definition loose (gs : list (Z * G)) (cams : list (Z * list Cam)) : list Cam :=
  if has_parent gs (-1) then [] else flat_map snd (filter (fun c => fst c =? -1) cams).

Lemma check_spec (gs : list (Z * G)) (cams : list (Z * list Cam)) :
  check_attached gs cams = (if forallb (fun c => (fst c =? -1) || has_parent gs (fst c)) cams
                            then Ok (loose gs cams) else Err EAssertion).
Proof.
  unfold check_attached, loose.
  assert (X : forall acc, foldM (fun (acc : list Cam) '(i, cs) =>
      if negb (has_parent gs (-1)) && (i =? -1) then Ok (acc ++ cs)
      else if has_parent gs i then Ok acc else Err EAssertion) acc cams
    = (if forallb (fun c => (fst c =? -1) || has_parent gs (fst c)) cams
       then Ok (acc ++ if has_parent gs (-1) then [] else flat_map snd (filter (fun c => fst c =? -1) cams)) else Err EAssertion)).
  { induction cams as [|[i cs] r IH]; intros acc.
    - cbn. destruct (has_parent gs (-1)); now rewrite app_nil_r.
    - cbn [foldM forallb filter fst]. destruct (Z.eqb_spec i (-1)) as [->|N]; cbn [orb].
      + assert (D : has_parent gs (-1) = true \/ has_parent gs (-1) = false) by (destruct (has_parent gs (-1)); auto).
        destruct D as [D|D].
        * transitivity (bind (Ok acc) (fun s => foldM (fun (acc : list Cam) '(i, cs) =>
             if negb (has_parent gs (-1)) && (i =? -1) then Ok (acc ++ cs)
             else if has_parent gs i then Ok acc else Err EAssertion) s r)); [f_equal; now rewrite D|].
          cbn [bind]. rewrite IH. now rewrite D.
        * transitivity (bind (Ok (acc ++ cs)) (fun s => foldM (fun (acc : list Cam) '(i, cs) =>
             if negb (has_parent gs (-1)) && (i =? -1) then Ok (acc ++ cs)
             else if has_parent gs i then Ok acc else Err EAssertion) s r)); [f_equal; now rewrite D|].
          cbn [bind]. rewrite IH, D. cbn [andb flat_map snd]. now rewrite app_assoc.
      + rewrite andb_false_r. destruct (has_parent gs i) eqn:E; cbn [bind andb]; [apply IH | reflexivity]. }
  apply X.
Qed.

Lemma has_parent_sort (gs : list (Z * G)) i : has_parent (sort_geoms gs) i = has_parent gs i.
Proof.
  apply eq_true_iff_eq. rewrite !has_parent_iff. split; intros (g & H); exists g; now apply In_sort.
Qed.
Lemma check_sort (gs : list (Z * G)) (cams : list (Z * list Cam)) : check_attached (sort_geoms gs) cams = check_attached gs cams.
Proof.
  rewrite !check_spec. unfold loose. rewrite has_parent_sort.
  replace (forallb (fun c => (fst c =? -1) || has_parent (sort_geoms gs) (fst c)) cams)
    with (forallb (fun c => (fst c =? -1) || has_parent gs (fst c)) cams); [reflexivity|].
  induction cams as [|c r IH]; [reflexivity|]. cbn [forallb]. now rewrite has_parent_sort, IH.
Qed.

(** The model of a system whose geometries are attached to links or the world: one body for every link with a
    geometry, which has exactly the geometries of that link in the order of the system, and its cameras and lights. *)
Theorem C79_bodies parents (gs : list (Z * G)) (cams lights : list (Z * list Cam)) :
  (forall i g, In (i, g) gs -> -1 <= i) ->
  (forall i cs, In (i, cs) (cams ++ lights) -> attachable gs i) ->
  exists m, build_model parents gs cams lights = Ok m /\
    mm_bodies m = map (fun p => (p, (attached p gs, find_cams cams p, find_cams lights p))) parents /\
    mm_world_cams m = loose gs cams /\ mm_world_lights m = loose gs lights.
Proof.
  intros B A. unfold build_model. cbv zeta. rewrite !check_sort, !check_spec.
  assert (F : forall cs, incl cs (cams ++ lights) -> forallb (fun c => (fst c =? -1) || has_parent gs (fst c)) cs = true).
  { intros cs I. apply forallb_forall. intros [i c] H. cbn [fst]. destruct (A i c (I _ H)) as [->|X]; [reflexivity|].
    apply has_parent_iff in X. rewrite X. apply orb_true_r. }
  rewrite !F by (intros ? ?; apply in_or_app; auto). cbn [bind]. unfold group_geoms.
  assert (S : sortedb_from (sort_geoms gs)) by (apply sorted_geoms_alt, sort_sorted).
  destruct (group_loop (sort_geoms gs) (-1) (map (fun p => (p, [])) parents) S) as (p & E).
  { intros i g H. apply (proj1 (In_sort _ _)) in H. exact (B i g H). }
  rewrite E. cbn [bind snd]. eexists. split; [reflexivity|]. cbn [mm_bodies mm_world_cams mm_world_lights].
  split; [|split; reflexivity]. rewrite !map_map. apply map_ext. intros k. now rewrite attached_sort.
Qed.

(** A camera on a link without a geometry is refused. *)
Theorem C79_camera_refused parents (gs : list (Z * G)) (cams lights : list (Z * list Cam)) i cs :
  In (i, cs) cams -> ~ attachable gs i -> build_model parents gs cams lights = Err EAssertion.
Proof.
  intros H N. unfold build_model. cbv zeta. rewrite check_sort, check_spec.
  replace (forallb (fun c => (fst c =? -1) || has_parent gs (fst c)) cams) with false; [reflexivity|]. symmetry.
  apply not_true_iff_false. intros F. rewrite forallb_forall in F. specialize (F _ H). cbn [fst] in F.
  apply orb_true_iff in F. destruct F as [F|F].
  - apply Z.eqb_eq in F. apply N. now left.
  - apply has_parent_iff in F. apply N. now right.
Qed.

(** The cameras look at the first link with a geometry, or at the world if no link has one. *)
Theorem C79_target parents (gs : list (Z * G)) (cams lights : list (Z * list Cam)) m :
  build_model parents gs cams lights = Ok m ->
  (forall p, In p parents -> -1 <= p) ->
  (mm_target m = -1 <-> forall p, In p parents -> p = -1) /\
  (mm_target m <> -1 -> In (mm_target m) parents /\ forall p, In p parents -> p <> -1 -> mm_target m <= p).
Proof.
  intros H B. unfold build_model in H. cbv zeta in H.
  apply bind_Ok in H. destruct H as (? & _ & H). apply bind_Ok in H. destruct H as (? & _ & H).
  apply bind_Ok in H. destruct H as (? & _ & H). injection H as <-. cbn [mm_target]. unfold target_body.
  assert (F : forall p, In p (filter (fun p => negb (p =? -1)) parents) <-> In p parents /\ p <> -1).
  { intros p. rewrite filter_In, negb_true_iff, Z.eqb_neq. reflexivity. }
  destruct (filter (fun p => negb (p =? -1)) parents) as [|q r].
  - split.
    + split; [|reflexivity]. intros _ p Hp. destruct (Z.eq_dec p (-1)) as [E|E]; [exact E|]. destruct (F p) as [_ X]. destruct (X (conj Hp E)).
    + intros X. congruence.
  - assert (M : forall r q, In (fold_left Z.min r q) (q :: r) /\ forall p, In p (q :: r) -> fold_left Z.min r q <= p).
    { clear. induction r as [|a r IH]; intros q; cbn [fold_left].
      - split; [now left|]. intros p [->|[]]. lia.
      - destruct (IH (Z.min q a)) as [I1 I2]. split.
        + destruct I1 as [I1|I1]; [|right; now right]. destruct (Z.min_spec q a) as [[_ E]|[_ E]]; rewrite E in I1; rewrite E, <- I1; [now left | right; now left].
        + intros p [->|[->|Hp]].
          * specialize (I2 (Z.min p a) (or_introl eq_refl)). lia.
          * specialize (I2 (Z.min q p) (or_introl eq_refl)). lia.
          * apply I2. now right. }
    destruct (M r q) as [M1 M2]. apply F in M1. destruct M1 as [M1 M3]. split.
    + split; [congruence|]. intros X. exfalso. apply M3. now apply X.
    + intros _. split; [exact M1|]. intros p Hp Np. apply M2. apply F. now split.
Qed.
End Bodies.

(** A link index below -1 (none of a system read from a file) makes the loop over the links run forever. *)
Theorem C79_index_below_refuted : exists gs : list (Z * unit), build_model (Cam := unit) [-2] gs [] [] = Err EOutOfFuel.
Proof. exists [(-2, tt)]. reflexivity. Qed.

(** ** Frames *)

Lemma every_nil (P : Type) k n : every P k n [] = [].
Proof. now destruct k. Qed.
Lemma every_skip (P : Type) n xs : forall k, every P k n xs = every P 0 n (skipn k xs).
Proof. induction xs as [|x r IH]; intros [|k]; cbn [every skipn]; auto. Qed.
Lemma nth_error_skipn' (P : Type) (xs : list P) : forall k i, nth_error (skipn k xs) i = nth_error xs (k + i).
Proof. induction xs as [|x r IH]; intros [|k] i; cbn; auto. now destruct i. Qed.

Lemma every_nth (P : Type) n : (0 < n)%nat -> forall i xs, nth_error (every P 0 n xs) i = nth_error xs (n * i).
Proof.
  intros N i. induction i as [|i IH]; intros [|x r].
  - now rewrite Nat.mul_0_r.
  - now rewrite Nat.mul_0_r.
  - cbn. now destruct (n * S i)%nat.
  - cbn [every nth_error]. rewrite every_skip, IH, nth_error_skipn'.
    replace (n * S i)%nat with (S (n - 1 + n * i)) by lia. reflexivity.
Qed.

Section Frames.
Variables Args VB Scene Frame Pose : Type.
Variable args_eqb : Args -> Args -> bool.
Variable vb_eqb : option VB -> option VB -> bool.
Variable uses_vispy : Args -> bool.
Variable build : Args -> option VB -> result Scene.
Variable links : Pose -> option nat.
Variable draw : Scene -> Pose -> Frame.
Hypothesis args_eq : forall a b, args_eqb a b = true <-> a = b.
Hypothesis vb_eq : forall a b, vb_eqb a b = true <-> a = b.

Notation load := (load_scene Args VB Scene args_eqb vb_eqb uses_vispy build).
Notation rend := (render Args VB Scene Frame Pose args_eqb vb_eqb uses_vispy build links draw).

Lemma select_spec n (xs : list Pose) : 1 <= n ->
  exists ys, select Pose n xs = Ok ys /\ forall i, nth_error ys i = nth_error xs (Z.to_nat n * i).
Proof.
  intros H. unfold select. destruct (Z.eqb_spec n 1) as [->|N].
  - exists xs. split; [reflexivity|]. intros i. f_equal. lia.
  - destruct (Z.eqb_spec n 0) as [->|N0]; [lia|]. destruct (Z.ltb_spec n 0); [lia|]. eexists. split; [reflexivity|].
    intros i. apply every_nth. lia.
Qed.

Lemma check_ok n_links (x : Pose) : data_check Pose links n_links x = Ok tt <-> links x = Some n_links.
Proof.
  unfold data_check. destruct (links x) as [k|]; [|split; discriminate]. destruct (Nat.eqb_spec k n_links) as [->|N].
  - split; reflexivity.
  - split; [discriminate | intros E; congruence].
Qed.

(** Frame i of a rendered trajectory shows its pose number n * i, and there is one frame for each of these. *)
Theorem C79_frames c a vb n_links n (xs : list Pose) c' frames : 1 <= n ->
  rend c a vb n_links n xs = (c', Ok frames) -> frames <> [] ->
  exists s, c_scene _ _ _ c' = Some s /\
    forall i, nth_error frames i = option_map (draw s) (nth_error xs (Z.to_nat n * i)).
Proof.
  intros N H NE. unfold render in H. destruct (select_spec n xs N) as (ys & E & Y). rewrite E in H.
  destruct (mapM (data_check Pose links n_links) ys) as [us|e] eqn:C; [|discriminate].
  destruct (load c a vb) as [c1 r] eqn:L.
  assert (S : exists s, r = Ok (Some s) /\ frames = map (draw s) ys /\ c1 = c').
  { destruct r as [[s|]|e].
    - injection H as -> <-. eauto.
    - destruct ys; [|discriminate]. injection H as -> <-. congruence.
    - discriminate. }
  destruct S as (s & -> & -> & ->). exists s. split.
  - unfold load_scene in L. destruct (match c_args _ _ _ c with Some _ => _ | None => _ end).
    + injection L as <- L. exact L.
    + destruct (build a vb); [now injection L as <- -> | discriminate].
  - intros i. rewrite nth_error_map, Y. reflexivity.
Qed.

(** With poses that fit and a scene that can be built, rendering succeeds. *)
Theorem C79_frames_total a vb n_links n (xs : list Pose) s : 1 <= n -> build a vb = Ok s ->
  (forall x, In x xs -> links x = Some n_links) ->
  exists frames, snd (rend (cache0 _ _ _) a vb n_links n xs) = Ok frames /\
    forall i, nth_error frames i = option_map (draw s) (nth_error xs (Z.to_nat n * i)).
Proof.
  intros N Bd L. unfold render. destruct (select_spec n xs N) as (ys & E & Y). rewrite E.
  assert (C : mapM (data_check Pose links n_links) ys = Ok (map (fun _ => tt) ys)).
  { assert (L' : forall x, In x ys -> links x = Some n_links).
    { intros x H. apply In_nth_error in H. destruct H as (i & H). rewrite Y in H. apply nth_error_In in H. now apply L. }
    clear - L'. induction ys as [|y r IH]; [reflexivity|]. cbn [mapM map].
    replace (data_check Pose links n_links y) with (Ok tt) by (symmetry; apply check_ok, L'; now left).
    cbn [bind]. rewrite IH; [reflexivity|]. intros x H. apply L'. now right. }
  rewrite C. unfold load_scene. cbn [cache0 c_args]. rewrite Bd. cbn [snd]. eexists. split; [reflexivity|].
  intros i. now rewrite nth_error_map, Y.
Qed.

(** Poses which do not have one entry per link are refused before anything is drawn, with the scene left alone. *)
Theorem C79_refused c a vb n_links n (xs : list Pose) i x : 1 <= n ->
  nth_error xs (Z.to_nat n * i) = Some x -> links x <> Some n_links ->
  rend c a vb n_links n xs = (c, Err EAssertion).
Proof.
  intros N H L. unfold render. destruct (select_spec n xs N) as (ys & E & Y). rewrite E. rewrite <- Y in H.
  apply nth_error_In in H. destruct (mapM (data_check Pose links n_links) ys) as [us|e] eqn:C.
  - exfalso. apply mapM_Ok_iff in C. apply L. apply check_ok.
    clear - C H. induction C as [|y u ys us D C IH]; [destruct H|]. destruct u.
    destruct H as [->|H]; [exact D | now apply IH].
  - f_equal. clear - C. revert e C. induction ys as [|y r IH]; intros e C; [discriminate|]. cbn [mapM] in C.
    destruct (data_check Pose links n_links y) as [u|e'] eqn:D.
    + cbn [bind] in C. destruct (mapM _ r); [discriminate|]. cbn in C. injection C as <-. now apply IH.
    + cbn in C. injection C as <-. unfold data_check in D. destruct (links y) as [k|]; [|now injection D as <-].
      destruct (Nat.eqb k n_links); [discriminate | now injection D as <-].
Qed.
Theorem C79_step_zero c a vb n_links (xs : list Pose) : rend c a vb n_links 0 xs = (c, Err EValue).
Proof. reflexivity. Qed.

(** ** Which scene is used *)

(** A list of calls, one after the other. *)
Fixpoint loads (c : cache Args VB Scene) (calls : list (Args * option VB)) : cache Args VB Scene * list (result (option Scene)) :=
  match calls with
  | [] => (c, [])
  | (a, vb) :: r => let '(c1, x) := load c a vb in let '(c2, l) := loads c1 r in (c2, x :: l)
  end.

(** What the cache holds after calls that all succeeded. *)
Definition good (c : cache Args VB Scene) : Prop :=
  match c_args _ _ _ c with
  | None => True
  | Some (a, vb) => exists s vb', c_scene _ _ _ c = Some s /\ build a vb' = Ok s /\ (uses_vispy a = false -> vb' = vb)
  end.

Lemma load_good c a vb s : good c -> snd (load c a vb) = Ok (Some s) ->
  good (fst (load c a vb)) /\ exists vb', build a vb' = Ok s /\ (uses_vispy a = false -> vb' = vb).
Proof.
  intros Gd H. unfold load_scene in *. destruct (match c_args _ _ _ c with Some _ => _ | None => _ end) eqn:S.
  - cbn [fst snd] in *. split; [exact Gd|]. injection H as H. unfold good in Gd. destruct (c_args _ _ _ c) as [[a' vb']|]; [|discriminate].
    apply andb_true_iff in S. destruct S as [S1 S2]. apply args_eq in S1. apply vb_eq in S2. subst a' vb'.
    destruct Gd as (s' & vb' & E & Bd & U). assert (s' = s) by congruence. subst. eauto.
  - destruct (build a vb) as [s'|e] eqn:Bd; cbn [fst snd] in *; [|discriminate]. injection H as ->. split; [|eauto].
    unfold good. cbn [c_args c_scene]. exists s, vb. repeat split; auto. intros U. now rewrite U.
Qed.

(** As long as no scene failed to build, every call gets a scene that was built from its own arguments: the same system,
    backend and options, except that with vispy the window toolkit may be that of an earlier call. *)
Theorem C79_scene calls rs c' : loads (cache0 _ _ _) calls = (c', rs) ->
  (forall r, In r rs -> exists s, r = Ok (Some s)) ->
  Forall2 (fun '(a, vb) r => exists s vb', r = Ok (Some s) /\ build a vb' = Ok s /\ (uses_vispy a = false -> vb' = vb)) calls rs.
Proof.
  assert (X : forall calls c rs, good c -> loads c calls = (c', rs) -> (forall r, In r rs -> exists s, r = Ok (Some s)) ->
    Forall2 (fun '(a, vb) r => exists s vb', r = Ok (Some s) /\ build a vb' = Ok s /\ (uses_vispy a = false -> vb' = vb)) calls rs).
  { clear calls rs. induction calls as [|[a vb] r IH]; intros c rs Gd H A; cbn [loads] in H.
    - injection H as <- <-. constructor.
    - destruct (load c a vb) as [c1 x] eqn:L. destruct (loads c1 r) as [c2 l] eqn:Ls. injection H as <- <-.
      destruct (A x (or_introl eq_refl)) as (s & ->). pose proof (load_good c a vb s Gd) as Q. rewrite L in Q. cbn [fst snd] in Q.
      destruct (Q eq_refl) as (G1 & vb' & Bd & U). constructor; [eauto 6|]. apply (IH c1); auto. intros y Hy. apply A. now right. }
  intros H A. apply (X calls (cache0 _ _ _)); auto. exact Logic.I.
Qed.
End Frames.

(** After a scene failed to build, the same call again does not fail: it uses the scene of an earlier call, of another
    system. *)
Theorem C79_stale_refuted :
  exists (build : nat -> option unit -> result nat) a b s,
    build a None = Ok s /\ build b None = Err EKey /\
    snd (loads nat unit nat Nat.eqb (fun _ _ => true) (fun _ => false) build (cache0 _ _ _) [(a, None); (b, None); (b, None)])
    = [Ok (Some s); Err EKey; Ok (Some s)].
Proof.
  exists (fun a _ => if Nat.eqb a 1 then Err EKey else Ok a), 0%nat, 1%nat, 0%nat. repeat split.
Qed.
(** The general reason: the arguments are remembered even if the scene could not be built. *)
Theorem C79_stale_general (Args VB Scene : Type) args_eqb vb_eqb uses_vispy (build : Args -> option VB -> result Scene) c a vb e :
  (forall a b, args_eqb a b = true <-> a = b) -> (forall a b, vb_eqb a b = true <-> a = b) -> uses_vispy a = false ->
  snd (load_scene Args VB Scene args_eqb vb_eqb uses_vispy build c a vb) = Err e ->
  let c1 := fst (load_scene Args VB Scene args_eqb vb_eqb uses_vispy build c a vb) in
  snd (load_scene Args VB Scene args_eqb vb_eqb uses_vispy build c1 a vb) = Ok (c_scene _ _ _ c).
Proof.
  intros A V U H. cbv zeta. unfold load_scene at 2. unfold load_scene in H.
  destruct (match c_args _ _ _ c with Some _ => _ | None => _ end) eqn:S; [discriminate|].
  destruct (build a vb) as [s|e']; [discriminate|]. cbn [fst]. unfold load_scene. cbn [c_args c_scene].
  rewrite U. replace (args_eqb a a) with true by (symmetry; now apply A). replace (vb_eqb vb vb) with true by (symmetry; now apply V).
  reflexivity.
Qed.

(** ** Colours *)
Theorem C79_colors rgbas c :
  color_to_rgba rgbas c =
  match c with
  | CNone => match dget String.eqb rgbas "self"%string with Some v => Ok v | None => Err EKey end
  | CTuple [r; g; b] => Ok [r; g; b; Rdefinitions.R1]
  | CTuple l => Ok l
  | CName s => match dget String.eqb rgbas s with Some v => Ok v | None => Err EKey end
  | COther => Err ENotImpl
  end.
Proof. destruct c as [|[|r [|g [|b [|? ?]]]]| |]; reflexivity. Qed.

(** ** A concrete case of each *)
Example C79_bodies_nonvacuous :
  exists m, build_model [0; 2; -1] [(2, "box"%string); (0, "ball"%string); (2, "rod"%string); (-1, "floor"%string)]
      [(2, ["cam"%string]); (-1, ["top"%string])] [] = Ok m /\
    mm_bodies m = [(0, (["ball"], [], [])); (2, (["box"; "rod"], ["cam"], [])); (-1, (["floor"], ["top"], []))]%string /\
    mm_target m = 0.
Proof. eexists. split; [vm_compute; reflexivity|]. split; reflexivity. Qed.
Example C79_frames_nonvacuous :
  let r := render nat unit nat (nat * list nat) (list nat) Nat.eqb (fun _ _ => true) (fun _ => false) (fun a _ => Ok a)
             (fun x => Some (length x)) pair (cache0 _ _ _) 7%nat None 2 in
  snd (r 2 [[1; 2]; [3]; [5; 6]; []; [7; 8]]%nat) = Ok [(7, [1; 2]); (7, [5; 6]); (7, [7; 8])]%nat /\
  snd (r 1 [[1; 2]; [3]]%nat) = Err EAssertion.
Proof. split; reflexivity. Qed.
