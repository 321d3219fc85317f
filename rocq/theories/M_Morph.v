(** * Model of ring.sys_composer.morph_sys. *)
From Coq Require Import String Ascii ZArith Lia Bool List.
From Verif Require Import Prelude M_Sys.
Import ListNotations.
Local Open Scope Z_scope.

(** morph_sys.py 11-27: the recursive closure [_connections] fills the dict [new_lam].  Python ints
    [i] in range(len(lam)) are naturals here.  Python's recursion is unbounded; [fuel] bounds its
    depth and running out of it is an explicit error. *)
Fixpoint connections (fuel : nat) (lam : list Z) (body : nat) (exclude : option nat)
    (new_lam : list (nat * Z)) : result (list (nat * Z)) :=
  match fuel with
  | 0%nat => Err EOutOfFuel
  | S k =>
    foldM (fun nl i =>
      if match exclude with Some e => (i =? e)%nat | None => false end then Ok nl
      else
        do li <- py_get lam (Z.of_nat i);
        do lb <- py_get lam (Z.of_nat body);
        if (li =? Z.of_nat body) || (lb =? Z.of_nat i) then
          do _ <- assert_ (negb (dmem Nat.eqb nl i));
          connections k lam i (Some body) (dset Nat.eqb nl i (Z.of_nat body))
        else Ok nl)
      new_lam (seq 0 (length lam))
  end.

Definition autodetermine_new_parents (lam : list Z) (new_anchor : nat) : result (list Z) :=
  do nl <- connections (S (2 * length lam)) lam new_anchor None [(new_anchor, -1)];
  mapM (dgetE Nat.eqb nl) (seq 0 (length lam)).

(** morph_sys.py 30-43: preorder of the tree below [parent], without the trailing -1. *)
Fixpoint find_childs_of (fuel : nat) (new_parents : list Z) (parent : Z) : result (list Z) :=
  match fuel with
  | 0%nat => Err EOutOfFuel
  | S k =>
    do ls <- mapM (fun ip =>
        if snd ip =? parent
        then do r <- find_childs_of k new_parents (Z.of_nat (fst ip)); Ok (Z.of_nat (fst ip) :: r)
        else Ok []) (enum new_parents);
    Ok (concat ls)
  end.
Definition new_to_old_indices (new_parents : list Z) : result (list Z) :=
  do l <- find_childs_of (S (length new_parents)) new_parents (-1); Ok (l ++ [-1]).

(** morph_sys.py 46-51 *)
Definition old_to_new_indices (new_parents : list Z) : result (list Z) :=
  do n2o <- new_to_old_indices new_parents;
  do l <- mapM (fun i => do k <- indexZ (Z.of_nat i) n2o; Ok (Z.of_nat k)) (seq 0 (length new_parents));
  Ok (l ++ [-1]).

(** morph_sys.py 54-61 *)
Record Node := mkNode {
  link_idx_old : nat;
  link_idx_new : Z;
  old_parent_old : Z;
  old_parent_new : Z;
  new_parent_old : Z;
  new_parent_new : Z;
  parent_changed : bool }.

Section Identify.
Context {K L G O : Type}.
Notation System := (System K L G O).

(** A requested parent: an int or a link name. *)
Definition parent_ref := (Z + string)%type.
Definition resolve (s : System) (r : parent_ref) : result Z :=
  match r with inl z => Ok z | inr nm => do i <- name_to_idx s nm; Ok (Z.of_nat i) end.

(** morph_sys.py 64-108 with checks=True *)
Definition identify_node (lam np o2n : list Z) (i : nat) : result Node :=
  do op <- py_get lam (Z.of_nat i);
  do npi <- py_get np (Z.of_nat i);
  let changed := negb (npi =? op) in
  do inew <- py_get o2n (Z.of_nat i);
  do opn <- py_get o2n op;
  do npn <- py_get o2n npi;
  do _ <- (if changed && negb (npi =? -1) then
             do g <- py_get lam npi; assert_ (g =? Z.of_nat i)
           else Ok tt);
  Ok (mkNode i inew op opn npi npn changed).

Definition identify_system (s : System) (np : list Z)
  : result (list Node * list Z * list Z) :=
  do n2o <- new_to_old_indices np;
  do o2n <- old_to_new_indices np;
  do structure <- mapM (identify_node (link_parents s) np o2n) (seq 0 (num_links s));
  let permutation := removelast n2o in
  do nps <- mapM (py_get np) permutation;
  do npa <- mapM (py_get o2n) nps;
  Ok (structure, permutation, npa).
End Identify.

(** ** The numeric part, over an abstract algebra of transforms.
    [T] transforms with product (algebra.py 29-38), inverse (41-45) and identity; [P] positions;
    [J] the joint parameters of a link. *)
Record talg (T P : Type) := mkTalg {
  tmul : T -> T -> T;
  tinv : T -> T;
  tid : T;
  tpos : T -> P;
  set_pos : P -> T -> T;
  p_lo : P -> P -> P;   (* jnp.where(a > b, b, a), morph_sys.py 184-188 *)
  p_hi : P -> P -> P }. (* jnp.where(b < a, a, b), morph_sys.py 189-193 *)
Arguments tmul {T P}.
Arguments tinv {T P}.
Arguments tid {T P}.
Arguments tpos {T P}.
Arguments set_pos {T P}.
Arguments p_lo {T P}.
Arguments p_hi {T P}.

(** base.py 340-360: the fields of Link used by morphing; [l_rest] stands for inertia, transform and
    transform2, which are recomputed elsewhere. *)
Record mlink (T P J R : Type) := mkLink {
  l_t1 : T; l_pmin : P; l_pmax : P; l_jp : J; l_rest : R }.
Arguments mkLink {T P J R}.
Arguments l_t1 {T P J R}.
Arguments l_pmin {T P J R}.
Arguments l_pmax {T P J R}.
Arguments l_jp {T P J R}.
Arguments l_rest {T P J R}.

Section Morph.
Context {K T P J R G O : Type}.
Variable W : widths.
(** A geometry is its transform and the rest. *)
Notation Sys := (System K (mlink T P J R) (T * G) O).
Variable ops : parse_ops K (mlink T P J R) (T * G).
Variable A : talg T P.
(** jcalc_transform(typ, default coordinates, joint_params): the joint's transform in the default state. *)
Variable jt : string -> J -> T.

(** kinematics.py 13-54 in the default state (base.py 1067-1083), only the [x] output.  Arguments are
    the per-link transform1. *)
Fixpoint fk_loop (parents : list Z) (types : list string) (jps : list J) (t1s : list T) (xs : list T)
  : result (list T) :=
  match parents, types, jps, t1s with
  | [], _, _, _ => Ok xs
  | p :: ps, t :: ts, j :: js, t1 :: t1s' =>
      do xp <- (if p =? -1 then Ok (tid A) else
                match (if p <? 0 then None else nth_error xs (Z.to_nat p)) with
                | Some x => Ok x | None => Err EKey end);
      fk_loop ps ts js t1s' (xs ++ [tmul A (tmul A (jt t j) t1) xp])
  | _, _, _, _ => Err EAssertion
  end.
Definition fk_default (s : Sys) (t1s : list T) : result (list T) :=
  fk_loop (link_parents s) (link_types s) (map l_jp (links s)) t1s [].

(** morph_sys.py 250-256: links whose parent changed (not to the world) move onto their new parent. *)
Definition moves (nd : Node) : bool := parent_changed nd && negb (new_parent_old nd =? -1).
Definition x_moved (structure : list Node) (x : list T) : result (list T) :=
  foldM (fun xm nd =>
           if moves nd then
             do xp <- py_get x (new_parent_old nd);
             Ok (list_set xm (link_idx_old nd) xp)
           else Ok xm) x structure.

(** morph_sys.py 258-272: the geometries of a moved link are compensated. *)
Definition move_geoms (structure : list Node) (x : list T) (gs : list (Z * (T * G)))
  : result (list (Z * (T * G))) :=
  foldM (fun gs nd =>
           if moves nd then
             do xt <- py_get x (Z.of_nat (link_idx_old nd));
             do xp <- py_get x (new_parent_old nd);
             let d := tmul A xt (tinv A xp) in
             Ok (map (fun g => if fst g =? Z.of_nat (link_idx_old nd)
                               then (fst g, (tmul A (fst (snd g)) d, snd (snd g))) else g) gs)
           else Ok gs) gs structure.

(** morph_sys.py 274-293: the new transform1 of link [i] (old index).  The loop there writes each link
    once and never reads what it wrote, so its order and [breakearly] do not matter for entry [i]. *)
Definition new_t1 (structure : list Node) (xm : list T) (i : Z) : result T :=
  do nd <- py_get structure i;
  do xp <- (if new_parent_old nd =? -1 then Ok (tid A) else py_get xm (new_parent_old nd));
  do xl <- py_get xm i;
  Ok (tmul A xl (tinv A xp)).

(** morph_sys.py 145-182 *)
Definition pos_use (structure : list Node) (i : nat) : result (option Z) :=
  do nd <- py_get structure (Z.of_nat i);
  if moves nd then
    do pn <- py_get structure (new_parent_old nd);
    Ok (if new_parent_old pn =? -1 then None else Some (new_parent_old pn))
  else Ok (Some (Z.of_nat i)).
Definition new_pos (s : Sys) (structure : list Node) (bound : mlink T P J R -> P) (i : nat) : result P :=
  do use <- pos_use structure i;
  let t1s := map l_t1 (links s) in
  do t1s' <- match use with
             | None => Ok t1s
             | Some u => do l <- py_get (links s) u;
                         Ok (list_set t1s (Z.to_nat u) (set_pos A (bound l) (l_t1 l)))
             end;
  do x <- fk_default s t1s';
  do xm <- x_moved structure x;
  do t <- new_t1 structure xm (Z.of_nat i);
  Ok (tpos A t).

(** morph_sys.py 338-361.  The inner [for] leaves the last node when none is attached to the world. *)
Fixpoint first_root (structure : list Node) (last : option nat) : result nat :=
  match structure with
  | [] => match last with Some i => Ok i | None => Err EName end
  | nd :: r => if old_parent_old nd =? -1 then Ok (link_idx_old nd) else first_root r (Some (link_idx_old nd))
  end.
Definition swap_with (structure : list Node) (nd : Node) : result Z :=
  if new_parent_old nd =? -1 then do i <- first_root structure None; Ok (Z.of_nat i)
  else Ok (if parent_changed nd then new_parent_old nd else Z.of_nat (link_idx_old nd)).

Definition jprops := (@dasz K * string * J)%type.
Definition swapped_joint_properties (s : Sys) (structure : list Node) : result (list jprops) :=
  do arrs <- per_link_arrays W s;
  let props := combine (combine arrs (link_types s)) (map l_jp (links s)) in
  mapM (fun nd => do k <- swap_with structure nd; py_get props k) structure.

(** morph_sys.py 298-315 *)
Definition permute_geoms (structure : list Node) (gs : list (Z * (T * G))) : result (list (Z * (T * G))) :=
  mapM (fun g => if fst g =? -1 then Ok g
                 else do nd <- py_get structure (fst g); Ok (link_idx_new nd, snd g)) gs.

(** morph_sys.py 203-208 *)
Definition permute {B} (perm : list Z) (l : list B) : result (list B) := mapM (py_get l) perm.

(** morph_sys.py 131-232, [new_parents] given, already resolved to ints. *)
Definition morph_parents (s : Sys) (np : list Z) : result Sys :=
  do _ <- assert_ (length np =? num_links s)%nat;
  do idn <- identify_system s np;
  let '(structure, perm, npa) := idn in
  do x <- fk_default s (map l_t1 (links s));
  do xm <- x_moved structure x;
  do gs <- move_geoms structure x (geoms s);
  do t1s <- mapM (fun i => new_t1 structure xm (Z.of_nat i)) (seq 0 (num_links s));
  do lo <- mapM (new_pos s structure l_pmin) (seq 0 (num_links s));
  do hi <- mapM (new_pos s structure l_pmax) (seq 0 (num_links s));
  let links1 := map (fun z => let '(((t, a), b), l) := z in
                       mkLink t (p_lo A a b) (p_hi A a b) (l_jp l) (l_rest l))
                    (combine (combine (combine t1s lo) hi) (links s)) in
  do jp0 <- swapped_joint_properties s structure;
  do jp <- permute perm jp0;
  do plinks <- permute perm links1;
  do names <- permute perm (link_names s);
  do pomc <- permute perm (omc s);
  do d <- concatenate (map (fun p => fst (fst (fst (fst (fst p))))) jp);
  do a <- concatenate (map (fun p => snd (fst (fst (fst (fst p))))) jp);
  do ss <- concatenate (map (fun p => snd (fst (fst (fst p)))) jp);
  do sz <- concatenate (map (fun p => snd (fst (fst p))) jp);
  do gs' <- permute_geoms structure gs;
  parse W ops
    (mkSys npa
       (map (fun lj => mkLink (l_t1 (fst lj)) (l_pmin (fst lj)) (l_pmax (fst lj)) (snd (snd lj)) (l_rest (fst lj)))
            (combine plinks jp))
       (map (fun p => snd (fst p)) jp) d a ss sz (sys_dt s) gs' (gravity s)
       (integration_method s) (mass_mat_iters s) names (model_name s) pomc).

(** morph_sys.py 111-135: exactly one of [new_parents] and [new_anchor] must be given. *)
Definition morph_system (s : Sys) (new_parents : option (list parent_ref)) (new_anchor : option (nat + string))
  : result Sys :=
  match new_parents, new_anchor with
  | None, None => Err EAssertion
  | Some _, Some _ => Err EAssertion
  | Some np, None =>
      do _ <- assert_ (length np =? num_links s)%nat;
      do zs <- mapM (resolve s) np; morph_parents s zs
  | None, Some a =>
      do i <- match a with inl i => Ok i | inr nm => name_to_idx s nm end;
      do np <- autodetermine_new_parents (link_parents s) i;
      morph_parents s np
  end.
End Morph.
