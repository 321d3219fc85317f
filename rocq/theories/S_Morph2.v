(** * Specification vocabulary for the outcome of morphing. *)
From Coq Require Import String ZArith List Permutation.
From Verif Require Import Prelude M_Sys S_Sys S_Morph M_Morph.
Import ListNotations.
Local Open Scope Z_scope.

(** Every requested edge existed before, possibly in the other direction. *)
Definition edges_kept (lam np : list Z) : Prop :=
  forall i p, nth_error np i = Some (Z.of_nat p) ->
    nth_error lam i = Some (Z.of_nat p) \/ nth_error lam p = Some (Z.of_nat i).

(** The link whose joint ends up at old link [i]: a new root takes the joint of the first link that
    was attached to the world; a link whose parent edge was reversed takes its new parent's joint;
    all others keep theirs. *)
Inductive joint_from (lam np : list Z) (i : nat) : nat -> Prop :=
| jf_root j : nth_error np i = Some (-1) -> nth_error lam j = Some (-1) ->
    (forall k, (k < j)%nat -> nth_error lam k <> Some (-1)) -> joint_from lam np i j
| jf_same p : nth_error np i = Some (Z.of_nat p) -> nth_error lam i = Some (Z.of_nat p) -> joint_from lam np i i
| jf_reversed p : nth_error np i = Some (Z.of_nat p) -> nth_error lam i <> Some (Z.of_nat p) -> joint_from lam np i p.

(** [s'] is [s] hung up according to [np]: new link [m] is old link [perm[m]]. *)
Record morphed {K T P J R G O} (W : widths) (s : System K (mlink T P J R) (T * G) O) (np : list Z) (perm : list nat)
    (s' : System K (mlink T P J R) (T * G) O) : Prop := {
  mo_perm : Permutation perm (seq 0 (num_links s));
  mo_parents : Forall2 (fun i p' => exists p, nth_error np i = Some p /\ same_parent perm p p') perm (link_parents s');
  mo_topo : topo (link_parents s');
  mo_views : exists vs vs', views W s vs /\ views W s' vs' /\
     forall m i v, nth_error perm m = Some i -> nth_error vs i = Some v ->
       exists j w v', joint_from (link_parents s) np i j /\ nth_error vs j = Some w /\ nth_error vs' m = Some v' /\
         v_name v' = v_name v /\ v_omc v' = v_omc v /\
         v_type v' = v_type w /\ v_damping v' = v_damping w /\ v_armature v' = v_armature w /\
         v_stiffness v' = v_stiffness w /\ v_zeropoint v' = v_zeropoint w /\
         l_jp (v_link v') = l_jp (v_link w);
  mo_geoms : forall m i, nth_error perm m = Some i ->
     map snd (attached (Z.of_nat m) (geoms s')) = map snd (attached (Z.of_nat i) (geoms s));
  mo_world : attached (-1) (geoms s') = attached (-1) (geoms s);
  mo_global : sys_dt s' = sys_dt s /\ gravity s' = gravity s /\
     integration_method s' = integration_method s /\ mass_mat_iters s' = mass_mat_iters s /\
     model_name s' = model_name s }.

(** Transforms form a group; setting a position sets it. *)
Record talg_laws {T P} (A : talg T P) : Prop := {
  tg_assoc : forall a b c, tmul A (tmul A a b) c = tmul A a (tmul A b c);
  tg_id_l : forall a, tmul A (tid A) a = a;
  tg_id_r : forall a, tmul A a (tid A) = a;
  tg_inv_l : forall a, tmul A (tinv A a) a = tid A;
  tg_inv_r : forall a, tmul A a (tinv A a) = tid A;
  tg_pos : forall p t, tpos A (set_pos A p t) = p }.

(** The inertia of a link is neither its frame nor its limits nor its joint parameters; sorted limits
    pass the check of System.parse. *)
Record link_laws {K T P J R G} (ops : parse_ops K (mlink T P J R) (T * G)) (A : talg T P) : Prop := {
  ll_t1 : forall gs l, l_t1 (with_inertia ops gs l) = l_t1 l;
  ll_jp : forall gs l, l_jp (with_inertia ops gs l) = l_jp l;
  ll_sorted : forall t a b j r, pos_ok ops (mkLink t (p_lo A a b) (p_hi A a b) j r) = true;
  ll_ok : forall l, pos_ok ops l = true ->
     p_lo A (l_pmin l) (l_pmax l) = l_pmin l /\ p_hi A (l_pmin l) (l_pmax l) = l_pmax l }.

(** [xs] are the poses of the links in the default state: link = joint transform, then transform1,
    then the pose of the parent. *)
Definition posed {K T P J R G O} (A : talg T P) (jt : string -> J -> T)
    (s : System K (mlink T P J R) (T * G) O) (xs : list T) : Prop :=
  length xs = num_links s /\
  forall i p ty l x, nth_error (link_parents s) i = Some p -> nth_error (link_types s) i = Some ty ->
    nth_error (links s) i = Some l -> nth_error xs i = Some x ->
    exists xp, ((p = -1 /\ xp = tid A) \/ exists k, p = Z.of_nat k /\ nth_error xs k = Some xp) /\
      x = tmul A (tmul A (jt ty (l_jp l)) (l_t1 l)) xp.
