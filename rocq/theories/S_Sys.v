(** * Specification vocabulary for System operations, independent of the model's helpers. *)
From Coq Require Import String ZArith List.
From Verif Require Import Prelude M_Sys.
Import ListNotations.
Local Open Scope Z_scope.

(** [ps] cuts [xs] into consecutive pieces of the lengths [ws]: nothing lost, nothing doubled,
    order kept.  For given [ws] and [xs] there is at most one such [ps]. *)
Definition splits {V} (ws : list nat) (xs : list V) (ps : list (list V)) : Prop :=
  map (@length V) ps = ws /\ concat ps = xs.

(** The joint types [types] have the coordinate widths [ws] in the width table [w]. *)
Definition have_widths (w : string -> option nat) (types : list string) (ws : list nat) : Prop :=
  Forall2 (fun t n => w t = Some n) types ws.

(** What the callback must see of one argument, link by link. *)
Definition column_ok {V} (W : widths) (types : list string) (t : in_type) (arg : list V)
    (col : list (piece V)) : Prop :=
  match t with
  | TL => length arg = length types /\ col = map One arg
  | TQ => exists ws ps, have_widths (qW W) types ws /\ splits ws arg ps /\ col = map Many ps
  | TD => exists ws ps, have_widths (dW W) types ws /\ splits ws arg ps /\ col = map Many ps
  | TOther => False
  end.

(** [rows] is the table [cols] read link by link. *)
Definition transposed {A} (n : nat) (cols rows : list (list A)) : Prop :=
  length rows = n /\
  forall i row, nth_error rows i = Some row ->
    length row = length cols /\
    forall j c, nth_error cols j = Some c -> nth_error row j = nth_error c i.

(** Slice [i] of an index map starts after all coordinates of the links before [i]. *)
Definition slices_ok (w : string -> option nat) (types : list string) (sls : list slice) : Prop :=
  exists ws, have_widths w types ws /\ length sls = length ws /\
    forall i n, nth_error ws i = Some n ->
      nth_error sls i = Some (list_sum (firstn i ws), (list_sum (firstn i ws) + n)%nat).

(** [f] is called once per row, in the order of the rows, each call receiving the previous output
    and the state left by the previous call. *)
Inductive calls {V Y St} (f : option Y -> idx_map -> list (piece V) -> St -> result (Y * St))
    (im : idx_map) : option Y -> St -> list (list (piece V)) -> list Y -> St -> Prop :=
| calls_nil y st : calls f im y st [] [] st
| calls_cons y st row rows y1 st1 outs st' :
    f y im row st = Ok (y1, st1) ->
    calls f im (Some y1) st1 rows outs st' ->
    calls f im y st (row :: rows) (y1 :: outs) st'.

(** ** Trees *)

(** Every parent is the world (-1) or an earlier link: the order System.scan relies on. *)
Definition topo (parents : list Z) : Prop :=
  forall i p, nth_error parents i = Some p -> -1 <= p < Z.of_nat i.

(** [descends parents a i]: link [a] is link [i] or an ancestor of link [i]. *)
Inductive descends (parents : list Z) (a : nat) : nat -> Prop :=
| desc_refl : descends parents a a
| desc_step i p : nth_error parents i = Some (Z.of_nat p) -> descends parents a p -> descends parents a i.

(** A well-formed system: what every operation of the code relies on. *)
Record wf {K L G O} (W : widths) (s : System K L G O) : Prop := {
  wf_types : length (link_types s) = length (link_parents s);
  wf_links : length (links s) = length (link_parents s);
  wf_names : length (link_names s) = length (link_parents s);
  wf_omc : length (omc s) = length (link_parents s);
  wf_unique : NoDup (link_names s);
  wf_topo : topo (link_parents s);
  wf_geoms : Forall (fun g => -1 <= fst g < Z.of_nat (length (link_parents s))) (geoms s);
  wf_arrays : exists qs ds,
    have_widths (qW W) (link_types s) qs /\ have_widths (dW W) (link_types s) ds /\
    length (link_damping s) = list_sum ds /\ length (link_armature s) = list_sum ds /\
    length (link_spring_stiffness s) = list_sum ds /\ length (link_spring_zeropoint s) = list_sum qs }.

(** The data of link [i] of a system, read independently of how arrays are concatenated. *)
Record link_view (K L O : Type) := mkView {
  v_name : string; v_type : string; v_link : L; v_omc : O;
  v_damping : list K; v_armature : list K; v_stiffness : list K; v_zeropoint : list K }.
Arguments mkView {K L O}.

(** [views s vs]: [vs] lists the data of the links of [s], the coordinate arrays being cut into
    per-link pieces as wide as the joint types prescribe. *)
Definition views {K L G O} (W : widths) (s : System K L G O) (vs : list (link_view K L O)) : Prop :=
  link_names s = map (@v_name K L O) vs /\
  link_types s = map (@v_type K L O) vs /\
  links s = map (@v_link K L O) vs /\
  omc s = map (@v_omc K L O) vs /\
  length (link_parents s) = length vs /\
  (exists qs ds, have_widths (qW W) (link_types s) qs /\ have_widths (dW W) (link_types s) ds /\
     splits ds (link_damping s) (map (@v_damping K L O) vs) /\
     splits ds (link_armature s) (map (@v_armature K L O) vs) /\
     splits ds (link_spring_stiffness s) (map (@v_stiffness K L O) vs) /\
     splits qs (link_spring_zeropoint s) (map (@v_zeropoint K L O) vs)).
Arguments v_name {K L O}.
Arguments v_type {K L O}.
Arguments v_link {K L O}.
Arguments v_omc {K L O}.
Arguments v_damping {K L O}.
Arguments v_armature {K L O}.
Arguments v_stiffness {K L O}.
Arguments v_zeropoint {K L O}.

(** [picks keep l l']: [l'] consists of the entries of [l] at the positions [keep], in that order. *)
Definition picks {A} (keep : list nat) (l l' : list A) : Prop :=
  Forall2 (fun i a => nth_error l i = Some a) keep l'.

(** The per-link validity checked by System.parse. *)
Definition valid_view {K L G O} (ops : parse_ops K L G) (v : link_view K L O) : Prop :=
  pos_ok ops (v_link v) = true /\
  (is_free_or_cor_or_spherical (v_type v) = true -> unit_quat_ok ops (firstn 4 (v_zeropoint v)) = true).

(** Geometries attached to link (or world) [z], in order. *)
Fixpoint attached {G} (z : Z) (gs : list (Z * G)) : list G :=
  match gs with
  | [] => []
  | (y, g) :: r => if Z.eq_dec y z then g :: attached z r else attached z r
  end.

Definition sorted_geoms {G} (gs : list (Z * G)) : Prop :=
  forall i j x y g h, (i <= j)%nat -> nth_error gs i = Some (x, g) -> nth_error gs j = Some (y, h) -> x <= y.

(** A system as System.parse leaves it: geometries sorted by link, every link carrying the
    inertia of its geometries, per-link checks passed. *)
Record parsed {K L G O} (W : widths) (ops : parse_ops K L G) (s : System K L G O) : Prop := {
  pd_wf : wf W s;
  pd_sorted : sorted_geoms (geoms s);
  pd_inertia : forall i l, nth_error (links s) i = Some l ->
      with_inertia ops (attached (Z.of_nat i) (geoms s)) l = l;
  pd_valid : exists vs, views W s vs /\ Forall (valid_view ops) vs }.

(** Laws of the abstract numeric operations: recomputing the inertia from the same geometries
    changes nothing, and the inertia is not part of the position limits. *)
Record ops_laws {K L G} (ops : parse_ops K L G) : Prop := {
  ol_idem : forall gs l, with_inertia ops gs (with_inertia ops gs l) = with_inertia ops gs l;
  ol_pos : forall gs l, pos_ok ops (with_inertia ops gs l) = pos_ok ops l;
  ol_one : forall r, unit_quat_ok ops (kone ops :: repeat (kzero ops) r) = true }.

(** [keep] lists old link indices in increasing order. *)
Definition increasing (keep : list nat) : Prop :=
  forall a b i j, (a < b)%nat -> nth_error keep a = Some i -> nth_error keep b = Some j -> (i < j)%nat.

(** The parent [p'] of a link in the new numbering denotes the same link as [p] in the old one:
    new link [m] is old link [keep[m]]. *)
Definition same_parent (keep : list nat) (p p' : Z) : Prop :=
  (p = -1 /\ p' = -1) \/
  exists m i, p = Z.of_nat i /\ p' = Z.of_nat m /\ nth_error keep m = Some i.

(** [s'] is [s] restricted to the links [keep]: same data per link, same parents up to renumbering,
    same geometries per link, same global settings. *)
Record restricts {K L G O} (W : widths) (s s' : System K L G O) (keep : list nat) : Prop := {
  rs_increasing : increasing keep;
  rs_views : exists vs vs', views W s vs /\ views W s' vs' /\ picks keep vs vs';
  rs_parents : Forall2 (fun i p' => exists p, nth_error (link_parents s) i = Some p /\ same_parent keep p p')
                       keep (link_parents s');
  rs_geoms : forall m i, nth_error keep m = Some i ->
      attached (Z.of_nat m) (geoms s') = attached (Z.of_nat i) (geoms s);
  rs_global : sys_dt s' = sys_dt s /\ gravity s' = gravity s /\
      integration_method s' = integration_method s /\ mass_mat_iters s' = mass_mat_iters s /\
      model_name s' = model_name s }.

(** Two views agree on everything but the link payload. *)
Definition agree_but_link {K L O} (v v' : link_view K L O) : Prop :=
  v_name v' = v_name v /\ v_type v' = v_type v /\ v_omc v' = v_omc v /\
  v_damping v' = v_damping v /\ v_armature v' = v_armature v /\ v_stiffness v' = v_stiffness v /\
  v_zeropoint v' = v_zeropoint v.

(** Filling missing joint parameters with NaN touches neither inertia nor position limits. *)
Record pad_laws {K L G} (ops : parse_ops K L G) (pad : list L -> L -> L) : Prop := {
  pl_inertia : forall o gs l, with_inertia ops gs (pad o l) = pad o (with_inertia ops gs l);
  pl_pos : forall o l, pos_ok ops (pad o l) = pos_ok ops l }.

(** [s'] is [s] followed by a copy of [sub] whose roots hang below [nw] (-1 = world). *)
Record injected {K L G O} (W : widths) (ops : parse_ops K L G) (pad : list L -> L -> L)
    (s sub : System K L G O) (nw : Z) (s' : System K L G O) : Prop := {
  ij_parents : link_parents s' = link_parents s ++
      map (fun p => if Z.eq_dec p (-1) then nw else p + Z.of_nat (length (link_parents s))) (link_parents sub);
  ij_views : exists vs vsub vs', views W s vs /\ views W sub vsub /\ views W s' vs' /\
      length vs' = (length vs + length vsub)%nat /\
      (forall i v, nth_error vs i = Some v -> exists v', nth_error vs' i = Some v' /\ agree_but_link v v' /\
          v_link v' = with_inertia ops (attached (Z.of_nat i) (geoms s')) (pad (links sub) (v_link v))) /\
      (forall j v, nth_error vsub j = Some v -> exists v', nth_error vs' (length vs + j) = Some v' /\
          agree_but_link v v' /\ v_link v' = pad (links s) (v_link v));
  ij_geoms_host : forall z, -1 <= z < Z.of_nat (length (link_parents s)) ->
      attached z (geoms s') = attached z (geoms s) ++ (if Z.eq_dec z nw then attached (-1) (geoms sub) else []);
  ij_geoms_sub : forall j, 0 <= j -> attached (Z.of_nat (length (link_parents s)) + j) (geoms s') = attached j (geoms sub);
  ij_global : sys_dt s' = sys_dt s /\ gravity s' = gravity s /\
      integration_method s' = integration_method s /\ mass_mat_iters s' = mass_mat_iters s /\
      model_name s' = model_name s }.

(** Link [i] is neither named nor below a named link. *)
Definition survives {K L G O} (s : System K L G O) (names : list string) (i : nat) : Prop :=
  (i < num_links s)%nat /\
  forall k nm, In nm names -> nth_error (link_names s) k = Some nm -> ~ descends (link_parents s) k i.

(** Everything but names and joints is the same: tree, geometries, global settings. *)
Definition same_frame {K L G O} (s s' : System K L G O) : Prop :=
  link_parents s' = link_parents s /\ geoms s' = geoms s /\ sys_dt s' = sys_dt s /\ gravity s' = gravity s /\
  integration_method s' = integration_method s /\ mass_mat_iters s' = mass_mat_iters s /\
  model_name s' = model_name s.

(** [f] applied to the link called [name], every other link untouched. *)
Definition at_name {K L O} (name : string) (f : link_view K L O -> link_view K L O) (v : link_view K L O) :=
  if String.eqb (v_name v) name then f v else v.

(** A frozen joint has no coordinates. *)
Definition frozen_view {K L O} (v : link_view K L O) : link_view K L O :=
  mkView (v_name v) "frozen" (v_link v) (v_omc v) [] [] [] [].

(** The link with joint type [typ] of widths [qn], [dn]: given arrays are used, missing ones are zero,
    a missing zeropoint of a spherical, free or cor joint is the identity quaternion (and zeros). *)
Definition changed_view {K L G O} (ops : parse_ops K L G) (typ : string) (qn dn : nat)
    (na nd ns nz : option (list K)) (v : link_view K L O) : link_view K L O :=
  let dflt o n := match o with Some a => a | None => repeat (kzero ops) n end in
  mkView (v_name v) typ (v_link v) (v_omc v) (dflt nd dn) (dflt na dn) (dflt ns dn)
    (match nz with
     | Some z => z
     | None => if in_dec string_dec typ ["spherical"; "free"; "cor"]%string
               then match qn with 0%nat => [] | S m => kone ops :: repeat (kzero ops) m end
               else repeat (kzero ops) qn
     end).

(** free -> cor: existing entries first, then a copy of the translational ones. *)
Definition cor_view {K L O} (v : link_view K L O) : link_view K L O :=
  if String.eqb (v_type v) "free" then
    mkView (v_name v) "cor" (v_link v) (v_omc v) (v_damping v ++ skipn 3 (v_damping v))
      (v_armature v ++ skipn 3 (v_armature v)) (v_stiffness v ++ skipn 3 (v_stiffness v))
      (v_zeropoint v ++ skipn 4 (v_zeropoint v))
  else v.

(** Names of the links attached to the world. *)
Definition root_names {K L G O} (s : System K L G O) : list string :=
  map snd (filter (fun pn => fst pn =? -1) (combine (link_parents s) (link_names s))).
