(** * Model of ring.sys_composer.delete_sys and inject_sys. *)
From Coq Require Import String Ascii ZArith Lia Bool List.
From Verif Require Import Prelude M_Sys.
Import ListNotations.
Local Open Scope Z_scope.

(** delete_sys.py 92-97 *)
Definition find_subsystem_indices (parents : list Z) (k : nat) : list Z :=
  fold_left (fun sub ip => if memZ (snd ip) sub then sub ++ [Z.of_nat (fst ip)] else sub)
            (enum parents) [Z.of_nat k].

(** delete_sys.py 101-106 *)
Definition keepers (n : nat) (subsys : list Z) : list nat :=
  filter (fun i => negb (memZ (Z.of_nat i) subsys)) (seq 0 n).

(** delete_sys.py 108: dict(zip([-1] + keep, range(-1, len(keep)))) *)
Definition keep_idx_map (keep : list nat) : list (Z * Z) :=
  combine (-1 :: map Z.of_nat keep) (map (fun j => Z.of_nat j - 1) (seq 0 (S (length keep)))).

Definition memN (i : nat) (l : list nat) : bool := existsb (Nat.eqb i) l.

(** delete_sys.py 43-44 *)
Definition take {A} (keep : list nat) (l : list A) : list A :=
  map snd (filter (fun ia => memN (fst ia) keep) (enum l)).

(** delete_sys.py 112-114 *)
Definition reindex_parents (parents : list Z) (keep : list nat) : result (list Z) :=
  mapM (dgetE Z.eqb (keep_idx_map keep)) (take keep parents).

(** delete_sys.py 76-80 *)
Definition reindex_geoms {G} (keep : list nat) (gs : list (Z * G)) : result (list (Z * G)) :=
  mapM (fun g => do z <- dgetE Z.eqb (keep_idx_map keep) (fst g); Ok (z, snd g))
       (filter (fun g => memZ (fst g) (map Z.of_nat keep)) gs).

Section Compose.
Context {K L G O : Type}.
Notation System := (System K L G O).
Variable W : widths.
Variable ops : parse_ops K L G.

(** delete_sys.py 36-89 (one name, strict).  [links] indexing by [keep] (line 69) is list selection:
    all indices are in range because the system has been parsed. *)
Definition delete_one (s : System) (name : string) : result System :=
  do _ <- assert_ (memS name (link_names s));
  do k <- name_to_idx s name;
  let subsys := find_subsystem_indices (link_parents s) k in
  let keep := keepers (num_links s) subsys in
  do arrs <- per_link_arrays W s;
  let kept := take keep arrs in
  do d <- concatenate (map (fun x => fst (fst (fst x))) kept);
  do a <- concatenate (map (fun x => snd (fst (fst x))) kept);
  do ss <- concatenate (map (fun x => snd (fst x)) kept);
  do sz <- concatenate (map snd kept);
  do ps <- reindex_parents (link_parents s) keep;
  do gs <- reindex_geoms keep (geoms s);
  parse W ops
    (mkSys ps (take keep (links s)) (take keep (link_types s)) d a ss sz (sys_dt s) gs (gravity s)
           (integration_method s) (mass_mat_iters s) (take keep (link_names s)) (model_name s)
           (take keep (omc s))).

(** delete_sys.py 30-34 *)
Definition delete_one_nonstrict (s : System) (name : string) : result System :=
  match delete_one s name with
  | Err EAssertion => Ok s
  | r => r
  end.

(** delete_sys.py 25-28 *)
Definition delete_subsystem (s : System) (names : list string) (strict : bool) : result System :=
  foldM (if strict then delete_one else delete_one_nonstrict) s names.

(** delete_sys.py 12-18 *)
Definition make_sys_noimu (s : System) (imus : option (list string))
  : result (System * list (string * string)) :=
  let names := match imus with Some l => l | None => findall_imus s end in
  do att <- mapM (fun n => do p <- parent_name s n; Ok (n, p)) names;
  do s' <- delete_subsystem s names true;
  Ok (s', att).

(** inject_sys.py 41-110.  [pad other l] is link [l] after the entries of joint_params which only
    the [other] system has were filled with NaN (lines 66-84); the mutation of the caller's
    dictionaries by these lines is not modelled. *)
Variable pad : list L -> L -> L.

Definition new_parent (N : nat) (new_world old : Z) : Z :=
  if negb (old =? -1) then old + Z.of_nat N else new_world.

Definition inject_system (s sub : System) (at_body : option string) : result System :=
  do nw <- match at_body with
           | None => Ok (-1)
           | Some b => do i <- name_to_idx s b; Ok (Z.of_nat i)
           end;
  let np := new_parent (num_links s) nw in
  parse W ops
    (mkSys (link_parents s ++ map np (link_parents sub))
           (map (pad (links sub)) (links s) ++ map (pad (links s)) (links sub))
           (link_types s ++ link_types sub)
           (link_damping s ++ link_damping sub) (link_armature s ++ link_armature sub)
           (link_spring_stiffness s ++ link_spring_stiffness sub)
           (link_spring_zeropoint s ++ link_spring_zeropoint sub)
           (sys_dt s) (geoms s ++ map (fun g => (np (fst g), snd g)) (geoms sub)) (gravity s)
           (integration_method s) (mass_mat_iters s) (link_names s ++ link_names sub) (model_name s)
           (omc s ++ omc sub)).

End Compose.
