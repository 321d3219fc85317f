(** * Attributes and elements written by the saver are read back by the loader. *)
From Coq Require Import Reals Lra ZArith Lia String Ascii Bool List.
From Verif Require Import Prelude M_Sys M_Math M_Geom M_Joint M_Xml S_Sys S_Xml.
Import ListNotations.
Local Open Scope string_scope.
Local Open Scope list_scope.

(** ** Text *)
Lemma split_nonempty s : split_sp s <> [].
Proof. destruct s as [|c r]; cbn [split_sp]; [discriminate|]. destruct (Ascii.eqb c " "); [discriminate|]. now destruct (split_sp r). Qed.

Lemma split_word w : no_space w -> split_sp w = [w].
Proof.
  induction w as [|c w IH]; intros H; [reflexivity|]. cbn [split_sp].
  destruct (Ascii.eqb_spec c " ") as [->|N]; [exfalso; apply H; now left|].
  rewrite IH; [reflexivity|]. intros X. apply H. now right.
Qed.
Lemma split_app w s : no_space w -> split_sp (w ++ String " " s)%string = w :: split_sp s.
Proof.
  induction w as [|c w IH]; intros H; [reflexivity|]. cbn [append split_sp].
  destruct (Ascii.eqb_spec c " ") as [->|N]; [exfalso; apply H; now left|].
  rewrite IH; [reflexivity|]. intros X. apply H. now right.
Qed.
Lemma split_concat ws : ws <> [] -> Forall no_space ws -> split_sp (String.concat " " ws) = ws.
Proof.
  induction ws as [|w ws IH]; intros N F; [congruence|]. inversion F as [|? ? A B]; subst.
  destruct ws as [|v ws]; [now apply split_word|].
  change (String.concat " " (w :: v :: ws)) with (w ++ String " " (String.concat " " (v :: ws)))%string.
  rewrite split_app by auto. f_equal. apply IH; [discriminate|auto].
Qed.
Lemma concat_split s : String.concat " " (split_sp s) = s.
Proof.
  induction s as [|c s IH]; [reflexivity|]. cbn [split_sp]. pose proof (split_nonempty s) as N.
  destruct (Ascii.eqb_spec c " ") as [->|X].
  - destruct (split_sp s) as [|w ws]; [congruence|].
    change (String.concat " " ("" :: w :: ws)) with (String " " (String.concat " " (w :: ws))). now rewrite IH.
  - destruct (split_sp s) as [|w ws]; [congruence|]. rewrite <- IH. destruct ws; reflexivity.
Qed.
Lemma split_no_space s : Forall no_space (split_sp s).
Proof.
  induction s as [|c s IH]; cbn [split_sp]; [repeat constructor; intros []|].
  destruct (Ascii.eqb_spec c " ") as [->|X].
  - constructor; auto. intros [].
  - destruct (split_sp s) as [|w ws]; inversion IH; subst; constructor; auto.
    + intros [Y|[]]. congruence.
    + intros [Y|Y]; [congruence|auto].
Qed.

Lemma all_some_map {A B} (f : A -> option B) l l' : Forall2 (fun a b => f a = Some b) l l' -> all_some (map f l) = Some l'.
Proof. induction 1 as [|a b l l' H _ IH]; cbn; [reflexivity|]. now rewrite H, IH. Qed.
Lemma all_some_Some {A} (l : list (option A)) l' : all_some l = Some l' -> l = map Some l'.
Proof.
  revert l'. induction l as [|[a|] l IH]; intros l'; cbn; [intros [= <-]; reflexivity| |discriminate].
  destruct (all_some l) as [r|]; [|discriminate]. intros [= <-]. cbn. now rewrite (IH r).
Qed.

Section Text.
Variable print : R -> string.
Variable print_int : Z -> string.
Variable float_of : string -> option R.
Variable num : R -> Prop.
Variable int : Z -> Prop.
Hypothesis F : faithful print print_int float_of num int.
Notation conv := (conv float_of).
Notation to_str := (to_str print).

Lemma conv_plain s : plain float_of s -> conv s = CText s.
Proof.
  intros H. unfold conv. destruct (all_some (map float_of (split_sp s))) as [l|] eqn:E; [|reflexivity]. exfalso. apply H.
  exists (split_sp s). split; [apply split_nonempty|]. split; [symmetry; apply concat_split|].
  apply all_some_Some in E. pose proof (split_no_space s) as NS. clear H. revert l E.
  induction NS as [|w ws A B IH]; intros l E; constructor.
  - split; auto. destruct l; cbn in E; [discriminate|]. injection E as E _. congruence.
  - destruct l as [|x l]; cbn in E; [discriminate|]. injection E as _ E. eauto.
Qed.

Lemma conv_nums l : l <> [] -> Forall num l -> conv (to_str l) = match l with [x] => CScal x | _ => CVec l end.
Proof.
  intros N H. unfold conv, to_str.
  assert (NS : Forall no_space (map print l)) by (apply Forall_map; eapply Forall_impl; [|exact H]; intros x X; now apply (ft_num _ _ _ _ _ F)).
  rewrite split_concat; [|destruct l; [congruence|discriminate]|auto].
  rewrite (all_some_map float_of (map print l) l).
  - destruct l as [|x [|y l]]; [congruence|reflexivity|reflexivity].
  - clear N NS. induction H as [|x l X _ IH]; constructor; auto. now apply (ft_num _ _ _ _ _ F).
Qed.
Lemma conv_num x : num x -> conv (print x) = CScal x.
Proof. intros X. apply (conv_nums [x]); [discriminate|auto]. Qed.
Lemma conv_int z : int z -> conv (print_int z) = CScal (IZR z).
Proof.
  intros X. destruct (ft_int _ _ _ _ _ F z X) as [A B]. unfold conv. rewrite split_word by auto. cbn. now rewrite A.
Qed.

Lemma int_of_IZR z : int_of (IZR z) = z.
Proof.
  assert (I : forall k, Int_part (IZR k) = k).
  { intros k. unfold Int_part. rewrite <- (tech_up (IZR k) (k + 1)); [lia| |]; rewrite plus_IZR; lra. }
  unfold int_of. destruct (Rle_dec 0 (IZR z)); [apply I|]. rewrite <- opp_IZR, I. lia.
Qed.

(** ** Attribute lists *)
Definition cv (a : list (string * string)) : list (string * cval) := map (fun kv => (fst kv, conv (snd kv))) a.
Definition lookup (a : list (string * string)) (k : string) : option string := dget String.eqb a k.

Lemma aget_cv a k : aget (cv a) k = option_map conv (lookup a k).
Proof. unfold aget, lookup, cv. induction a as [|[k' v] a IH]; cbn [map dget fst snd]; [reflexivity|]. now destruct (String.eqb k k'). Qed.
Lemma lookup_app a b k : lookup (a ++ b) k = match lookup a k with Some v => Some v | None => lookup b k end.
Proof. unfold lookup. induction a as [|[k' v] a IH]; cbn [app dget]; [reflexivity|]. now destruct (String.eqb k k'). Qed.
Lemma lookup_if (c : bool) k' v k : lookup (if c then [] else [(k', v)]) k = if String.eqb k k' then (if c then None else Some v) else None.
Proof. destruct c; cbn [lookup dget]; unfold lookup; cbn [dget]; now destruct (String.eqb k k'). Qed.
Lemma lookup_if2 (c : bool) k1 v1 k2 v2 k : lookup (if c then [] else [(k1, v1); (k2, v2)]) k =
  if String.eqb k k1 then (if c then None else Some v1) else if String.eqb k k2 then (if c then None else Some v2) else None.
Proof. destruct c; unfold lookup; cbn [dget]; destruct (String.eqb k k1), (String.eqb k k2); reflexivity. Qed.
Lemma lookup_opt k' c k : lookup (opt_attr print k' c) k = if String.eqb k k' then option_map (color_str print) c else None.
Proof. destruct c; unfold lookup, opt_attr; cbn [dget]; now destruct (String.eqb k k'). Qed.
Lemma lookup_cons k' v a k : lookup ((k', v) :: a) k = if String.eqb k k' then Some v else lookup a k.
Proof. reflexivity. Qed.
Lemma lookup_nil k : lookup [] k = None. Proof. reflexivity. Qed.

Lemma leqb_eq a b : leqb a b = true <-> a = b.
Proof. unfold leqb. destruct (list_eq_dec Req_EM_T a b); split; congruence. Qed.
Lemma v3_list_inj a b : v3_list a = v3_list b -> a = b.
Proof. destruct a, b. unfold v3_list. cbn. congruence. Qed.
Lemma q4_list_inj a b : q4_list a = q4_list b -> a = b.
Proof. destruct a, b. unfold q4_list. cbn. congruence. Qed.

Ltac lk := rewrite ?lookup_app, ?lookup_if, ?lookup_if2, ?lookup_opt, ?lookup_cons, ?lookup_nil; cbn [String.eqb Ascii.eqb Bool.eqb].

Ltac lkd := lk; repeat match goal with |- context [leqb ?a ?b] => destruct (leqb a b) end;
  repeat match goal with |- context [option_map _ ?c] => is_var c; destruct c end; reflexivity.

(** The lookups an element answers as the transform [t] prescribes. *)
Definition pos_val (p : vec3) : option string := if leqb (v3_list p) default_pos then None else Some (to_str (v3_list p)).
Definition quat_val (q : quat) : option string := if leqb (q4_list q) default_quat then None else Some (to_str (q4_list q)).

Lemma read_pos a p : num3 num p -> lookup a "pos" = pos_val p -> get_pos (cv a) = Ok p.
Proof.
  intros (X & Y & Z) H. unfold get_pos. rewrite aget_cv, H. unfold pos_val.
  destruct (leqb (v3_list p) default_pos) eqn:E; cbn [option_map].
  - apply leqb_eq in E. f_equal. symmetry. now apply (v3_list_inj p vzero).
  - rewrite conv_nums; [|discriminate|repeat (constructor; auto)]. destruct p; reflexivity.
Qed.
Lemma read_trans a t : num_t num t -> lookup a "pos" = pos_val (t_pos t) -> lookup a "quat" = quat_val (t_rot t) -> lookup a "euler" = None ->
  get_trans (cv a) = Ok t.
Proof.
  intros (P & Q1 & Q2 & Q3 & Q4) HP HQ HE. unfold get_trans. rewrite (read_pos a (t_pos t)) by auto. cbn [bind].
  unfold get_rotation. rewrite !aget_cv, HQ, HE. unfold quat_val.
  destruct (leqb (q4_list (t_rot t)) default_quat) eqn:E; cbn [option_map].
  - apply leqb_eq in E. apply (q4_list_inj _ qone) in E. cbn [bind]. rewrite <- E. now destruct t.
  - unfold dmem. change (dget String.eqb (cv a) "euler") with (aget (cv a) "euler"). rewrite aget_cv, HE. cbn [option_map negb assert_ bind].
    rewrite conv_nums; [|discriminate|repeat (constructor; auto)]. destruct t as [p [w x y z]]. reflexivity.
Qed.
Lemma read_minmax a lo hi pos : num3 num lo -> num3 num hi -> (lo = hi -> lo = pos) ->
  lookup a "pos_min" = (if leqb (v3_list lo) (v3_list hi) then None else Some (to_str (v3_list lo))) ->
  lookup a "pos_max" = (if leqb (v3_list lo) (v3_list hi) then None else Some (to_str (v3_list hi))) ->
  get_minmax (cv a) pos = Ok (lo, hi).
Proof.
  intros (X1 & Y1 & Z1) (X2 & Y2 & Z2) N H1 H2. unfold get_minmax. rewrite !aget_cv, H1, H2.
  destruct (leqb (v3_list lo) (v3_list hi)) eqn:E; cbn [option_map].
  - apply leqb_eq in E. apply v3_list_inj in E. rewrite <- (N E), <- E. reflexivity.
  - rewrite !conv_nums by (try discriminate; repeat (constructor; auto)). destruct lo as [a1 b1 c1], hi as [a2 b2 c2].
    cbn [v3_list vx vy vz as_vec3 bind] in *. cbn [v3_list vx vy vz]. rewrite E. reflexivity.
Qed.
Lemma read_arr a key arr dflt : Forall num arr -> length arr = length dflt ->
  lookup a key = (if leqb arr dflt then None else Some (to_str arr)) -> get_arr (cv a) key dflt = Ok arr.
Proof.
  intros N L H. unfold get_arr. rewrite aget_cv, H. destruct (leqb arr dflt) eqn:E; cbn [option_map].
  - apply leqb_eq in E. now rewrite E.
  - rewrite conv_nums; [destruct arr as [|x [|y arr]]; auto|intros ->|auto].
    destruct dflt; [|discriminate]. assert (leqb [] [] = true) by now apply leqb_eq. congruence.
Qed.
Lemma read_color a key c : saveable_color float_of num c -> lookup a key = option_map (color_str print) c -> get_color (cv a) key = Ok c.
Proof.
  intros S H. unfold get_color. rewrite aget_cv, H. destruct c as [[s|l]|]; cbn [option_map color_str saveable_color] in *; [| |reflexivity].
  - rewrite conv_plain; auto.
  - destruct S as [L N]. rewrite conv_nums; auto; destruct l as [|x [|y l]]; cbn in L; try lia; auto; discriminate.
Qed.
Lemma read_omc o : saveable_omc float_of num int (Some o) -> get_omc (cv (x_attrs (omc_elem print print_int o))) = Ok o.
Proof.
  intros (P & I & N3). unfold get_omc, omc_elem, x_attrs.
  rewrite (read_pos _ (o_pos o)); auto; [|unfold pos_val; lkd]. cbn [bind].
  rewrite !aget_cv. lk. cbn [option_map]. rewrite conv_int by auto. rewrite int_of_IZR. cbn [bind].
  rewrite conv_plain by auto. cbn. now destruct o.
Qed.

Lemma plain_word w : In w ["xyz"; "box"; "sphere"; "cylinder"; "capsule"] -> conv w = CText w.
Proof.
  intros H. unfold conv. rewrite split_word.
  - cbn. now rewrite (ft_words _ _ _ _ _ F w H).
  - cbn in H. unfold no_space. intuition subst; cbn in *; intuition discriminate.
Qed.
Lemma pos_dec x : (0 < x)%R -> (if Rlt_dec 0 x then true else false) = true.
Proof. intros H. now destruct (Rlt_dec 0 x). Qed.

Lemma read_geom g : saveable_geom float_of num g -> get_geom (cv (x_attrs (geom_elem print g))) = Ok g.
Proof.
  destruct g as [[m t sh] c e]. unfold saveable_geom. cbn [xg_geom g_shape g_mass g_transform xg_color xg_edge].
  destruct sh as [size|r|x y z|r l|r l].
  - intros ([= -> -> -> ->] & N & P). unfold get_geom, geom_elem, x_attrs. cbn [xg_geom g_shape].
    rewrite !aget_cv. lk. cbn [option_map]. rewrite (plain_word "xyz") by (cbn; auto). cbn [as_text bind String.eqb Ascii.eqb Bool.eqb].
    destruct (leqb [size] [1%R]) eqn:E; cbn [option_map].
    + apply leqb_eq in E. injection E as ->. cbn [bind]. rewrite pos_dec by lra. reflexivity.
    + rewrite conv_num by auto. cbn [bind]. rewrite pos_dec by auto. reflexivity.
  - intros (N & T & C & E & Nr & P). unfold get_geom. rewrite aget_cv. unfold geom_elem, x_attrs, common_attrs. cbn [xg_geom g_shape]. unfold trans_attrs.
    lk. cbn [option_map]. rewrite (plain_word "sphere") by (cbn; auto 10). cbn [as_text bind String.eqb Ascii.eqb Bool.eqb memS existsb orb].
    unfold get_mass, get_dim. rewrite !aget_cv. lk. cbn [option_map g_mass xg_geom]. rewrite conv_num by auto. cbn [bind].
    rewrite (read_trans _ t); auto; [|cbn [g_transform xg_geom]; unfold pos_val, quat_val; lkd..]. cbn [bind].
    rewrite (read_color _ "color" c); auto; [|cbn [g_transform xg_geom]; lkd]. cbn [bind].
    rewrite (read_color _ "edge_color" e); auto; [|cbn [g_transform xg_geom]; lkd]. cbn [bind].
    rewrite conv_nums by (try discriminate; auto). cbn [bind]. rewrite pos_dec by auto. reflexivity.
  - intros (N & T & C & E & Nx & Ny & Nz & Px & Py & Pz). unfold get_geom. rewrite aget_cv. unfold geom_elem, x_attrs, common_attrs. cbn [xg_geom g_shape]. unfold trans_attrs.
    lk. cbn [option_map]. rewrite (plain_word "box") by (cbn; auto 10). cbn [as_text bind String.eqb Ascii.eqb Bool.eqb memS existsb orb].
    unfold get_mass, get_dim. rewrite !aget_cv. lk. cbn [option_map g_mass xg_geom]. rewrite conv_num by auto. cbn [bind].
    rewrite (read_trans _ t); auto; [|cbn [g_transform xg_geom]; unfold pos_val, quat_val; lkd..]. cbn [bind].
    rewrite (read_color _ "color" c); auto; [|cbn [g_transform xg_geom]; lkd]. cbn [bind].
    rewrite (read_color _ "edge_color" e); auto; [|cbn [g_transform xg_geom]; lkd]. cbn [bind].
    rewrite conv_nums by (try discriminate; auto). unfold dims_of. cbn [length Nat.leb firstn forallb bind]. rewrite !pos_dec by auto. reflexivity.
  - intros (N & T & C & E & Nr & Nl & Pr & Pl). unfold get_geom. rewrite aget_cv. unfold geom_elem, x_attrs, common_attrs. cbn [xg_geom g_shape]. unfold trans_attrs.
    lk. cbn [option_map]. rewrite (plain_word "cylinder") by (cbn; auto 10). cbn [as_text bind String.eqb Ascii.eqb Bool.eqb memS existsb orb].
    unfold get_mass, get_dim. rewrite !aget_cv. lk. cbn [option_map g_mass xg_geom]. rewrite conv_num by auto. cbn [bind].
    rewrite (read_trans _ t); auto; [|cbn [g_transform xg_geom]; unfold pos_val, quat_val; lkd..]. cbn [bind].
    rewrite (read_color _ "color" c); auto; [|cbn [g_transform xg_geom]; lkd]. cbn [bind].
    rewrite (read_color _ "edge_color" e); auto; [|cbn [g_transform xg_geom]; lkd]. cbn [bind].
    rewrite conv_nums by (try discriminate; auto). unfold dims_of. cbn [length Nat.leb firstn forallb bind]. rewrite !pos_dec by auto. reflexivity.
  - intros (N & T & C & E & Nr & Nl & Pr & Pl). unfold get_geom. rewrite aget_cv. unfold geom_elem, x_attrs, common_attrs. cbn [xg_geom g_shape]. unfold trans_attrs.
    lk. cbn [option_map]. rewrite (plain_word "capsule") by (cbn; auto 10). cbn [as_text bind String.eqb Ascii.eqb Bool.eqb memS existsb orb].
    unfold get_mass, get_dim. rewrite !aget_cv. lk. cbn [option_map g_mass xg_geom]. rewrite conv_num by auto. cbn [bind].
    rewrite (read_trans _ t); auto; [|cbn [g_transform xg_geom]; unfold pos_val, quat_val; lkd..]. cbn [bind].
    rewrite (read_color _ "color" c); auto; [|cbn [g_transform xg_geom]; lkd]. cbn [bind].
    rewrite (read_color _ "edge_color" e); auto; [|cbn [g_transform xg_geom]; lkd]. cbn [bind].
    rewrite conv_nums by (try discriminate; auto). unfold dims_of. cbn [length Nat.leb firstn forallb bind]. rewrite !pos_dec by auto. reflexivity.
Qed.
End Text.
