(** * C96: systems as files and texts. *)
From Coq Require Import Reals Lra ZArith Lia String Ascii Bool List.
From Verif Require Import Prelude M_Sys M_Math M_Geom M_Joint M_Xml S_Sys S_Morph S_Xml C_Xml M_Disk S_Disk C_Disk M_Create.
Import ListNotations.
Local Open Scope string_scope.
Local Open Scope list_scope.

(** The name ends in ".xml", and something stands before it. *)
Definition xml_name (path : string) : Prop := exists base, base <> "" /\ path = (base ++ ".xml")%string.
Definition found (d : files) (path : string) : option string := dget String.eqb d path.

Lemma seqb a b : String.eqb a b = true <-> a = b. Proof. apply String.eqb_eq. Qed.
Lemma dmem_found (d : files) n : dmem String.eqb d n = match found d n with Some _ => true | None => false end.
Proof. reflexivity. Qed.
Lemma no_dot_xml : no_dot "xml". Proof. unfold no_dot. cbn. intuition discriminate. Qed.
Lemma xml_fixed path : xml_name path -> with_suffix path ".xml" = path.
Proof. intros (b & N & ->). unfold with_suffix. change (b ++ ".xml")%string with (b ++ "." ++ "xml")%string. rewrite stem_dotted; [reflexivity|auto|discriminate|apply no_dot_xml]. Qed.
Lemma stem_nonempty n : n <> "" -> stem n <> "".
Proof. intros N. unfold stem. destruct (last_dot n) as [[a b]|]; auto. destruct (String.eqb_spec a ""); auto. destruct (String.eqb_spec b ""); auto. Qed.
Lemma suffix_is_xml path : path <> "" -> xml_name (with_suffix path ".xml").
Proof. intros N. exists (stem path). split; [now apply stem_nonempty|reflexivity]. Qed.
Lemma app_nonempty a : (a ++ ".xml")%string <> "". Proof. destruct a; discriminate. Qed.
Lemma xml_nonempty path : xml_name path -> path <> "". Proof. intros (b & _ & ->). apply app_nonempty. Qed.

Section C96.
Context {J : Type}.
Variable W : widths.
Variable print : R -> string.
Variable print_int : Z -> string.
Variable float_of : string -> option R.
Variable jinit : Z -> list string -> result (list J).
Variable pretty : xml string -> string.
Variable fromstring : string -> result (xml string).
Variable num : R -> Prop.
Variable int : Z -> Prop.
Hypothesis F : faithful print print_int float_of num int.
(** Every seed gives one parameter value per link. *)
Hypothesis JI : forall seed ts, Forall (fun t => qW W t <> None) ts -> exists ps, jinit seed ts = Ok ps /\ length ps = length ts.
Notation to_text := (@to_text J W print print_int pretty).
Notation to_xml := (@to_xml J W print print_int pretty).
Notation from_str := (from_str W print_int float_of jinit fromstring).
Notation from_xml := (from_xml W print_int float_of jinit fromstring).
Notation create := (create W print_int float_of jinit fromstring).
Notation saveable := (saveable float_of num int W).
(** Python's XML library reads back what it has printed for [s]. *)
Definition printable (s : xsys J) : Prop := forall x, save W print print_int s = Ok x -> fromstring (pretty x) = Ok x.

(** Where a name leads, in terms of files. *)
Theorem C96_from_xml d path seed : path <> "" ->
  from_xml d path seed = match found d (with_suffix path ".xml") with Some t => from_str t seed | None => Err EOther end.
Proof. intros N. unfold M_Create.from_xml. destruct (String.eqb_spec path ""); [contradiction|reflexivity]. Qed.
Theorem C96_create d p seed : p <> "" ->
  create d p seed = match found d (with_suffix p ".xml") with Some t => from_str t seed | None => from_str p 1 end.
Proof.
  intros N. unfold M_Create.create. destruct (String.eqb_spec p ""); [contradiction|]. cbv zeta. rewrite dmem_found. pose proof (suffix_is_xml p N) as X.
  destruct (found d (with_suffix p ".xml")) as [t|] eqn:E; [|reflexivity]. rewrite C96_from_xml by now apply xml_nonempty. now rewrite xml_fixed, E.
Qed.

(** Text round trip, for every seed. *)
Theorem C96_text s : saveable s -> printable s ->
  exists t, to_text s = Ok t /\ forall seed, exists s' order, from_str t seed = Ok s' /\ reloaded W (jinit seed) s s' order.
Proof.
  intros SV P. destruct (C16_roundtrip W print print_int float_of (jinit 1) num int F (JI 1) s SV) as (x & _ & _ & A & _).
  exists (pretty x). unfold M_Create.to_text. rewrite A. split; [reflexivity|]. intros seed.
  destruct (C16_roundtrip W print print_int float_of (jinit seed) num int F (JI seed) s SV) as (x' & s' & order & A' & B & C).
  rewrite A in A'. injection A' as <-. exists s', order. split; [|exact C]. unfold M_Create.from_str. now rewrite (P x A).
Qed.
(** File round trip: under a name that ends in .xml, with or without the ending, by either function; other files stay. *)
Theorem C96_saved d s base : saveable s -> printable s -> base <> "" ->
  exists d', to_xml d s (base ++ ".xml")%string = Ok d' /\
    (forall other, other <> (base ++ ".xml")%string -> found d' other = found d other) /\
    forall seed, exists s' order, reloaded W (jinit seed) s s' order /\
      from_xml d' (base ++ ".xml")%string seed = Ok s' /\ create d' (base ++ ".xml")%string seed = Ok s' /\
      (no_dot base -> from_xml d' base seed = Ok s' /\ create d' base seed = Ok s').
Proof.
  intros SV P N. destruct (C96_text s SV P) as (t & T & H). unfold M_Create.to_xml. rewrite T. cbn [bind].
  destruct (String.eqb_spec (base ++ ".xml") "") as [E|_]; [now apply app_nonempty in E|]. eexists. split; [reflexivity|].
  assert (FX : found (dset String.eqb d (base ++ ".xml")%string t) (base ++ ".xml")%string = Some t) by (apply dget_dset_same, seqb).
  split; [intros o No; apply dget_dset_other; [apply seqb|congruence]|].
  intros seed. destruct (H seed) as (s' & order & L & RL). exists s', order. split; [exact RL|].
  assert (XF : with_suffix (base ++ ".xml") ".xml" = (base ++ ".xml")%string) by (apply xml_fixed; exists base; auto).
  rewrite C96_from_xml, C96_create by apply app_nonempty. rewrite XF, FX. split; [exact L|]. split; [exact L|]. intros ND.
  assert (XB : with_suffix base ".xml" = (base ++ ".xml")%string) by (unfold with_suffix; now rewrite stem_plain). rewrite C96_from_xml, C96_create by auto. now rewrite XB, FX.
Qed.

(** Saving that fails writes nothing: there is no new folder at all; and it fails only for systems without a text or the empty name. *)
Theorem C96_written d s path d' : to_xml d s path = Ok d' -> exists t, to_text s = Ok t /\ found d' path = Some t /\
  forall other, other <> path -> found d' other = found d other.
Proof.
  unfold M_Create.to_xml. destruct (to_text s) as [t|e]; [|discriminate]. cbn [bind]. destruct (String.eqb_spec path ""); [discriminate|]. intros H. injection H as <-.
  exists t. split; [reflexivity|]. split; [apply dget_dset_same, seqb|]. intros o No. apply dget_dset_other; [apply seqb|congruence].
Qed.
(** "What is saved under a name is what is loaded under that name" is false for every name that does not end in .xml:
    loading by that name does not see the new file.  It fails, or returns whatever the .xml file of that name held before. *)
Theorem C96_other_ending_refuted d s path d' : to_xml d s path = Ok d' -> ~ xml_name path ->
  forall seed, from_xml d' path seed = from_xml d path seed /\ create d' path seed = create d path seed.
Proof.
  intros H NX seed. assert (N : path <> ""). { intros ->. revert H. unfold M_Create.to_xml. destruct (to_text s); discriminate. }
  destruct (C96_written d s path d' H) as (t & _ & _ & O). pose proof (suffix_is_xml path N) as SX.
  assert (NE : with_suffix path ".xml" <> path) by (intros E; rewrite E in SX; contradiction).
  rewrite !C96_from_xml, !C96_create, !O by auto. auto.
Qed.
(** Two names that differ only behind the last dot lead to the same file. *)
Theorem C96_same_file d base a b seed : base <> "" -> a <> "" -> b <> "" -> no_dot a -> no_dot b ->
  from_xml d (base ++ "." ++ a)%string seed = from_xml d (base ++ "." ++ b)%string seed.
Proof.
  intros N Na Nb Da Db. rewrite !C96_from_xml by (destruct base; discriminate). unfold with_suffix. now rewrite !stem_dotted by auto.
Qed.
(** "create uses the seed" is false for texts: whatever the seed, the parameters of the joints are those of seed 1. *)
Theorem C96_seed_refuted d s t seed : saveable s -> printable s -> to_text s = Ok t -> t <> "" -> found d (with_suffix t ".xml") = None ->
  exists s' order, create d t seed = Ok s' /\ create d t 1 = Ok s' /\ reloaded W (jinit 1) s s' order /\
    ((forall ts, ts <> [] -> jinit seed ts <> jinit 1 ts) -> from_str t seed <> Ok s').
Proof.
  intros SV P T N NF. destruct (C96_text s SV P) as (t' & T' & H). rewrite T in T'. injection T' as <-.
  destruct (H 1%Z) as (s' & order & L & RL). exists s', order. rewrite !C96_create, NF by auto. split; [exact L|]. split; [exact L|]. split; [exact RL|].
  intros D E. destruct (H seed) as (s2 & o2 & L2 & RL2). rewrite L2 in E. injection E as ->.
  apply (D (link_types s')); [|now rewrite (rl_params _ _ _ _ _ RL), (rl_params _ _ _ _ _ RL2)].
  intros Z. pose proof (rl_params _ _ _ _ _ RL) as Q. pose proof (rl_parents _ _ _ _ _ RL) as PP. pose proof (rl_permutation _ _ _ _ _ RL) as PM.
  pose proof (pd_wf _ _ _ (rl_parsed _ _ _ _ _ RL)) as WF'. pose proof (sv_some _ _ _ _ _ SV) as NS.
  apply NS. apply length_zero_iff_nil. apply Permutation.Permutation_length in PM. rewrite seq_length in PM. unfold num_links in PM.
  rewrite <- PM. clear - PP WF' Z. apply (f_equal (@length _)) in Z. cbn [length] in Z.
  assert (length (link_parents s') = 0%nat) by (rewrite <- (wf_types _ _ WF'); exact Z). rewrite <- H. clear - PP. induction PP; cbn; auto.
Qed.
End C96.

(** A robot with one joint, whose parameter is the seed, and a stand-in for the text syntax of its file. *)
Definition seed_init (seed : Z) (ts : list string) : result (list Z) := Ok (map (fun _ => seed) ts).
Definition xone : xsys Z :=
  mkSys [-1]%Z [mkPL (Tr vzero qone) vzero (V3 1 1 1) 0%Z (inertia_from_geometries []) t_zero t_zero]
    ["ry"] [0%R] [0%R] [0%R] [0%R] (1/100)%R [] [0; 0; 981/100]%R "semi_implicit_euler" 0 ["arm"] (Some "robot") [None].
Definition one_pretty (_ : xml string) : string := "<x_xy/>".
Definition one_read (t : string) : result (xml string) := if (t =? "<x_xy/>")%string then save builtin_widths print3 print_z xone else Err EOther.
Lemma xone_parsed : parsed builtin_widths xml_ops xone.
Proof.
  constructor.
  - constructor; try reflexivity.
    + cbn [xone link_names]. repeat constructor; cbn [In]; intuition discriminate.
    + unfold xone, topo. cbn [link_parents]. intros [|i] p H; cbn in H; try (injection H as <-; lia). destruct i; discriminate.
    + constructor.
    + exists [1]%nat, [1]%nat. unfold have_widths. cbn [xone link_types].
      split; [repeat apply Forall2_cons; try reflexivity; apply Forall2_nil|].
      split; [repeat apply Forall2_cons; try reflexivity; apply Forall2_nil|]. repeat split.
  - intros i j x y g h L A B. cbn [xone geoms] in A. destruct i; discriminate.
  - intros [|i] l H; cbn [xone links nth_error] in H; try (destruct i; discriminate); injection H as <-; reflexivity.
  - exists [mkView "arm" "ry" (nth 0 (links xone) (mkPL (Tr vzero qone) vzero (V3 1 1 1) 0%Z (inertia_from_geometries []) t_zero t_zero)) None [0%R] [0%R] [0%R] [0%R]].
    split.
    + split; [reflexivity|]. split; [reflexivity|]. split; [reflexivity|]. split; [reflexivity|]. split; [reflexivity|].
      exists [1]%nat, [1]%nat. split; [repeat apply Forall2_cons; try reflexivity; apply Forall2_nil|].
      split; [repeat apply Forall2_cons; try reflexivity; apply Forall2_nil|]. repeat (split; [split; reflexivity|]). split; reflexivity.
    + repeat apply Forall_cons; [|apply Forall_nil]. split; [|cbn [v_type]; intros X; discriminate X].
      cbn [v_link nth xone links xml_ops phys_ops pos_ok pl_pmin pl_pmax vzero vx vy vz]. unfold Rleb. destruct (Rle_dec 0 1); [reflexivity|lra].
Qed.
Lemma xone_saveable : saveable read3 num3d (fun _ => True) builtin_widths xone.
Proof.
  assert (PL : forall t, all_some (map read3 (split_sp t)) = None -> plain read3 t) by (intros t; apply plain_by_reading).
  constructor.
  - exact xone_parsed.
  - discriminate.
  - exists "robot". split; [reflexivity|apply PL; reflexivity].
  - cbn [xone link_names]. repeat apply Forall_cons; try apply Forall_nil; apply PL; reflexivity.
  - cbn [xone link_types]. repeat apply Forall_cons; try apply Forall_nil; (split; [apply PL; reflexivity|discriminate]).
  - reflexivity.
  - split; reflexivity.
  - cbn [xone sys_dt gravity length]. split; [nm|]. split; [|lia]. repeat apply Forall_cons; try apply Forall_nil; nm.
  - cbn [xone link_damping link_armature link_spring_stiffness link_spring_zeropoint].
    split; [|split; [|split]]; repeat apply Forall_cons; try apply Forall_nil; nm.
  - cbn [xone links]. unfold saveable_link, num_t, num3. apply Forall_cons; [|apply Forall_nil]. cbn [pl_t1 pl_pmin pl_pmax t_pos t_rot vx vy vz qw qx qy qz vzero qone].
    split; [repeat split; nm|]. split; [repeat split; nm|]. split; [repeat split; nm|]. intros X. injection X. intros. exfalso. lra.
  - apply Forall_nil.
  - cbn [xone omc]. repeat apply Forall_cons; try apply Forall_nil. exact Logic.I.
Qed.
(** The conditions of all theorems are met; saved as "robot" it cannot be loaded, saved as "robot.xml" it can; the seed 2 is ignored. *)
Example C96_example :
  saveable read3 num3d (fun _ => True) builtin_widths xone /\ printable builtin_widths print3 print_z one_pretty one_read xone /\
  (forall ts, ts <> [] -> seed_init 2 ts <> seed_init 1 ts) /\
  (exists d', to_xml builtin_widths print3 print_z one_pretty [] xone "robot" = Ok d' /\ found d' "robot" <> None /\
     from_xml builtin_widths print_z read3 seed_init one_read d' "robot" 1 = Err EOther /\
     create builtin_widths print_z read3 seed_init one_read d' "robot" 1 = Err EOther) /\
  (exists d' s', to_xml builtin_widths print3 print_z one_pretty [] xone "robot.xml" = Ok d' /\
     create builtin_widths print_z read3 seed_init one_read d' "robot" 2 = Ok s' /\ map pl_params (links s') = map (fun _ => 2%Z) (link_types s')) /\
  (exists s', create builtin_widths print_z read3 seed_init one_read [] "<x_xy/>" 2 = Ok s' /\
     map pl_params (links s') = map (fun _ => 1%Z) (link_types s') /\ from_str builtin_widths print_z read3 seed_init one_read "<x_xy/>" 2 <> Ok s').
Proof.
  assert (P : printable builtin_widths print3 print_z one_pretty one_read xone) by (intros x H; exact H).
  assert (JI : forall seed ts, Forall (fun t => qW builtin_widths t <> None) ts -> exists ps, seed_init seed ts = Ok ps /\ length ps = length ts).
  { intros seed ts _. eexists. split; [reflexivity|]. now rewrite map_length. }
  assert (D : forall ts, ts <> [] -> seed_init 2 ts <> seed_init 1 ts). { intros [|t ts] N H; [congruence|]. unfold seed_init in H. cbn [map] in H. discriminate. }
  pose proof xone_saveable as SV.
  destruct (C96_text builtin_widths print3 print_z read3 seed_init one_pretty one_read num3d (fun _ => True) faithful3 JI xone SV P) as (t & T & H).
  assert (ET : t = "<x_xy/>"). { revert T. unfold to_text. destruct (save builtin_widths print3 print_z xone); [|discriminate]. cbn [bind]. unfold one_pretty. congruence. }
  subst t. split; [exact SV|]. split; [exact P|]. split; [exact D|]. split; [|split].
  - eexists. split; [unfold to_xml; rewrite T; reflexivity|]. split; [discriminate|]. split; reflexivity.
  - destruct (C96_saved builtin_widths print3 print_z read3 seed_init one_pretty one_read num3d (fun _ => True) faithful3 JI [] xone "robot" SV P) as (d' & A & _ & B); [discriminate|].
    destruct (B 2%Z) as (s' & order & RL & _ & _ & C). destruct C as [_ C]; [unfold no_dot; cbn; intuition discriminate|].
    exists d', s'. split; [exact A|]. split; [exact C|]. pose proof (rl_params _ _ _ _ _ RL) as Q. unfold seed_init in Q. congruence.
  - destruct (C96_seed_refuted builtin_widths print3 print_z read3 seed_init one_pretty one_read num3d (fun _ => True) faithful3 JI [] xone "<x_xy/>" 2 SV P T) as (s' & order & A & _ & RL & N); [discriminate|reflexivity|].
    exists s'. split; [exact A|]. split; [|exact (N D)]. pose proof (rl_params _ _ _ _ _ RL) as Q. unfold seed_init in Q. congruence.
Qed.
