(** * Model of ring.base.System and its structural operations (src/ring/base.py).

    The numeric payloads are abstract: [K] scalars, [L] per-link data (ring.base.Link), [G]
    geometry data without its link index, [O] the per-link omc entry.  All indices, names, joint types and
    the concatenated per-coordinate arrays are modelled exactly. *)
From Coq Require Import String Ascii ZArith Lia Bool List.
From Verif Require Import Prelude.
Import ListNotations.
Local Open Scope Z_scope.

(** The module level dictionaries Q_WIDTHS and QD_WIDTHS (base.py 369-400), as lookup functions:
    custom joints extend them (jcalc.py 1088-1090). *)
Record widths := mkW { qW : string -> option nat; dW : string -> option nat }.

Definition builtin_Q : list (string * nat) :=
  [("free", 7); ("free_2d", 3); ("frozen", 0); ("spherical", 4); ("p3d", 3); ("cor", 10);
   ("px", 1); ("py", 1); ("pz", 1); ("rx", 1); ("ry", 1); ("rz", 1); ("saddle", 2)]%string%nat.
Definition builtin_QD : list (string * nat) :=
  [("free", 6); ("free_2d", 3); ("frozen", 0); ("spherical", 3); ("p3d", 3); ("cor", 9);
   ("px", 1); ("py", 1); ("pz", 1); ("rx", 1); ("ry", 1); ("rz", 1); ("saddle", 2)]%string%nat.
Definition builtin_widths : widths :=
  mkW (dget String.eqb builtin_Q) (dget String.eqb builtin_QD).

Definition wget (w : string -> option nat) (t : string) : result nat :=
  match w t with Some n => Ok n | None => Err EKey end.

(** base.py 403-429: the System dataclass.  A geometry is a pair (link_idx, payload). *)
Record System (K L G O : Type) := mkSys {
  link_parents : list Z;
  links : list L;
  link_types : list string;
  link_damping : list K;
  link_armature : list K;
  link_spring_stiffness : list K;
  link_spring_zeropoint : list K;
  sys_dt : K;
  geoms : list (Z * G);
  gravity : list K;
  integration_method : string;
  mass_mat_iters : nat;
  link_names : list string;
  model_name : option string;
  omc : list O }.
Arguments mkSys {K L G O}.
Arguments link_parents {K L G O}.
Arguments links {K L G O}.
Arguments link_types {K L G O}.
Arguments link_damping {K L G O}.
Arguments link_armature {K L G O}.
Arguments link_spring_stiffness {K L G O}.
Arguments link_spring_zeropoint {K L G O}.
Arguments sys_dt {K L G O}.
Arguments geoms {K L G O}.
Arguments gravity {K L G O}.
Arguments integration_method {K L G O}.
Arguments mass_mat_iters {K L G O}.
Arguments link_names {K L G O}.
Arguments model_name {K L G O}.
Arguments omc {K L G O}.

(** Numeric checks and computations of System.parse, abstracted:
    - [unit_quat_ok z]: jnp.allclose(norm(z[:4]), 1.0)   (base.py 934-936)
    - [pos_ok l]: all(pos_max >= pos_min)                (base.py 899)
    - [with_inertia gs l]: link [l] with the inertia of its geometries [gs] (base.py 909-910, 953-970). *)
Record parse_ops (K L G : Type) := mkOps {
  kzero : K;
  kone : K;
  unit_quat_ok : list K -> bool;
  pos_ok : L -> bool;
  with_inertia : list G -> L -> L }.
Arguments mkOps {K L G}.
Arguments kzero {K L G}.
Arguments kone {K L G}.
Arguments unit_quat_ok {K L G}.
Arguments pos_ok {K L G}.
Arguments with_inertia {K L G}.

Section Sys.
Context {K L G O : Type}.
Notation System := (System K L G O).
Variable W : widths.

(** base.py 431-432 *)
Definition num_links (s : System) : nat := length (link_parents s).

(** base.py 434-438: sum([Q_WIDTHS[typ] for typ in link_types]) *)
Definition total_width (w : string -> option nat) (types : list string) : result nat :=
  do ws <- mapM (wget w) types; Ok (list_sum ws).
Definition q_size (s : System) : result nat := total_width (qW W) (link_types s).
Definition qd_size (s : System) : result nat := total_width (dW W) (link_types s).

(** base.py 440-441 *)
Definition name_to_idx (s : System) (n : string) : result nat := indexS n (link_names s).

(** base.py 443-447 *)
Definition idx_to_name (s : System) (i : Z) (allow_world : bool) : result string :=
  if allow_world && (i =? -1) then Ok "world"%string
  else do _ <- assert_ (0 <=? i); py_get (link_names s) i.

(** base.py 460-461 *)
Definition parent_name (s : System) (n : string) : result string :=
  do i <- name_to_idx s n;
  do p <- py_get (link_parents s) (Z.of_nat i);
  idx_to_name s p false.

(** ** _scan_sys, base.py 973-1023 *)

Inductive in_type := TL | TQ | TD | TOther.

(** A slice(start, stop) of Python. *)
Definition slice := (nat * nat)%type.
Definition take_slice {V} (xs : list V) (sl : slice) : list V :=
  firstn (snd sl - fst sl) (skipn (fst sl) xs).

(** base.py 992-1002: running offsets; [zip(order, link_types)] stops at the shorter list. *)
Fixpoint running_slices (w : string -> option nat) (off : nat) (types : list string)
  : result (list slice) :=
  match types with
  | [] => Ok []
  | t :: r => do n <- wget w t;
              do rest <- running_slices w (off + n) r;
              Ok ((off, (off + n)%nat) :: rest)
  end.
Definition idx_slices (w : string -> option nat) (s : System) : result (list slice) :=
  running_slices w 0 (firstn (num_links s) (link_types s)).

(** The idx_map handed to the callback: "q" and "d" entries (the "l" entry is the identity). *)
Record idx_map := mkIM { im_q : list slice; im_d : list slice }.

(** What a callback receives for one argument: an element for "l", a slice for "q" and "d". *)
Inductive piece (V : Type) := One (v : V) | Many (vs : list V).
Arguments One {V} v.
Arguments Many {V} vs.

Definition get_piece {V} (im : idx_map) (i : nat) (t : in_type) (arg : list V) : result (piece V) :=
  match t with
  | TL => match nth_error arg i with Some v => Ok (One v) | None => Err EIndex end
  | TQ => match nth_error (im_q im) i with
          | Some sl => Ok (Many (take_slice arg sl)) | None => Err EKey end
  | TD => match nth_error (im_d im) i with
          | Some sl => Ok (Many (take_slice arg sl)) | None => Err EKey end
  | TOther => Err EOther
  end.

(** base.py 974-990: number of arguments and their lengths. *)
Definition check_arg {V} (s : System) (ta : in_type * list V) : result unit :=
  match fst ta with
  | TL => assert_ (length (snd ta) =? num_links s)%nat
  | TQ => do n <- q_size s; assert_ (length (snd ta) =? n)%nat
  | TD => do n <- qd_size s; assert_ (length (snd ta) =? n)%nat
  | TOther => Err EOther
  end.

(** base.py 1013-1017.  The callback gets the output of the previous call, the index map and its
    pieces, and may change an outer state [St] (closures over lists and dicts in the code). *)
Fixpoint scan_loop {V Y St} (f : option Y -> idx_map -> list (piece V) -> St -> result (Y * St))
    (im : idx_map) (targs : list (in_type * list V)) (order : list nat)
    (y : option Y) (st : St) (acc : list Y) : result (list Y * St) :=
  match order with
  | [] => Ok (acc, st)
  | i :: r =>
      do ps <- mapM (fun ta => get_piece im i (fst ta) (snd ta)) targs;
      do ys <- f y im ps st;
      scan_loop f im targs r (Some (fst ys)) (snd ys) (acc ++ [fst ys])
  end.

(** base.py 973-1023.  [tree_batch] stacking is represented by the plain list of outputs. *)
Definition scan {V Y St} (s : System)
    (f : option Y -> idx_map -> list (piece V) -> St -> result (Y * St))
    (in_types : list in_type) (args : list (list V)) (reverse : bool) (st : St)
  : result (list Y * St) :=
  do _ <- assert_ (length args =? length in_types)%nat;
  let targs := combine in_types args in
  do _ <- mapM (check_arg s) targs;
  do qs <- idx_slices (qW W) s;
  do ds <- idx_slices (dW W) s;
  let order := seq 0 (num_links s) in
  let order := if reverse then rev order else order in
  do r <- scan_loop f (mkIM qs ds) targs order None st [];
  let '(ys, st') := r in
  Ok (if reverse then rev ys else ys, st').

(** ** Scans whose callback only appends its slices to lists.
    [slices_of w s xs] is the list of slices collected; it is shown equal to what [scan] hands out
    in P_Scan.v ([scan_collects_slices]). *)
Definition slices_of (w : string -> option nat) (s : System) (xs : list K) : result (list (list K)) :=
  do n <- total_width w (link_types s);
  do _ <- assert_ (length xs =? n)%nat;
  do sls <- idx_slices w s;
  mapM (fun i => match nth_error sls i with
                 | Some sl => Ok (take_slice xs sl) | None => Err EKey end)
       (seq 0 (num_links s)).

(** Per-link (damping, armature, stiffness, zeropoint): the scan "dddq" of
    morph_sys.py 318-335, delete_sys.py 48-63, base.py 854-863 and 939-948. *)
Definition dasz := (list K * list K * list K * list K)%type.
Definition per_link_arrays (s : System) : result (list dasz) :=
  do d <- slices_of (dW W) s (link_damping s);
  do a <- slices_of (dW W) s (link_armature s);
  do ss <- slices_of (dW W) s (link_spring_stiffness s);
  do sz <- slices_of (qW W) s (link_spring_zeropoint s);
  Ok (combine (combine (combine d a) ss) sz).

(** jnp.concatenate of a Python list: ValueError on the empty list. *)
Definition concatenate {A} (l : list (list A)) : result (list A) :=
  match l with [] => Err EValue | _ => Ok (concat l) end.

(** base.py 594-620 *)
Definition prefix_eqb (n : nat) (p t : string) : bool := String.eqb (substring 0 n t) p.
Definition joint_type_simplification (t : string) : string :=
  if prefix_eqb 4 "free" t then (if String.eqb t "free_2d" then "free_2d" else "free")%string
  else if prefix_eqb 3 "cor" t then "cor"%string
  else if prefix_eqb 9 "spherical" t then "spherical"%string
  else t.
Definition is_free_or_cor (t : string) : bool :=
  memS (joint_type_simplification t) ["free"; "cor"]%string.
Definition is_spherical (t : string) : bool :=
  String.eqb (joint_type_simplification t) "spherical"%string.
Definition is_free_or_cor_or_spherical (t : string) : bool := is_free_or_cor t || is_spherical t.

(** ** System.parse, base.py 885-950 *)
Variable ops : parse_ops K L G.

(** geoms.sort(key=link_idx): Python's sort is stable; insertion keeps equal keys in order. *)
Fixpoint insert_geom (g : Z * G) (gs : list (Z * G)) : list (Z * G) :=
  match gs with
  | [] => [g]
  | h :: r => if fst g <=? fst h then g :: h :: r else h :: insert_geom g r
  end.
Definition sort_geoms (gs : list (Z * G)) : list (Z * G) := fold_right insert_geom [] gs.

Definition geoms_of_link (gs : list (Z * G)) (i : Z) : list G :=
  map snd (filter (fun g => fst g =? i) gs).

(** base.py 921-937 *)
Definition check_dasz (t : string) (x : dasz) : result unit :=
  let '(d, a, s, z) := x in
  do qn <- wget (qW W) t;
  do dn <- wget (dW W) t;
  do _ <- assert_ ((length d =? length a) && (length a =? length s) && (length s =? dn))%nat;
  do _ <- assert_ (length z =? qn)%nat;
  if is_free_or_cor_or_spherical t then assert_ (unit_quat_ok ops (firstn 4 z)) else Ok tt.

Definition set_links_geoms (s : System) (ls : list L) (gs : list (Z * G)) : System :=
  mkSys (link_parents s) ls (link_types s) (link_damping s) (link_armature s)
        (link_spring_stiffness s) (link_spring_zeropoint s) (sys_dt s) gs (gravity s)
        (integration_method s) (mass_mat_iters s) (link_names s) (model_name s) (omc s).

Definition parse (s : System) : result System :=
  let n := num_links s in
  do _ <- assert_ ((length (link_parents s) =? length (link_types s))
                   && (length (link_types s) =? length (links s)))%nat;
  do _ <- assert_ (length (omc s) =? n)%nat;
  do _ <- assert_ (forallb (fun nm => countS nm (link_names s) =? 1)%nat (link_names s));
  do _ <- assert_ (forallb (pos_ok ops) (links s));
  do _ <- assert_ (forallb (fun g => (-1 <=? fst g) && (fst g <? Z.of_nat n)) (geoms s));
  do _ <- idx_slices (qW W) s;
  do _ <- idx_slices (dW W) s;
  let links' := map (fun il => with_inertia ops (geoms_of_link (geoms s) (Z.of_nat (fst il))) (snd il))
                    (enum (links s)) in
  let geoms' := sort_geoms (geoms s) in
  do _ <- assert_ (length (link_names s) =? n)%nat;
  do arrs <- per_link_arrays s;
  do _ <- mapM (fun ta => check_dasz (fst ta) (snd ta)) (combine (link_types s) arrs);
  Ok (set_links_geoms s links' geoms').

(** ** Renaming, base.py 463-495 *)
Definition set_names (s : System) (nm : list string) : System :=
  mkSys (link_parents s) (links s) (link_types s) (link_damping s) (link_armature s)
        (link_spring_stiffness s) (link_spring_zeropoint s) (sys_dt s) (geoms s) (gravity s)
        (integration_method s) (mass_mat_iters s) nm (model_name s) (omc s).

Fixpoint list_set {A} (l : list A) (i : nat) (a : A) : list A :=
  match l, i with
  | [], _ => []
  | _ :: r, 0%nat => a :: r
  | x :: r, S j => x :: list_set r j a
  end.

(** base.py 481-485: no re-parse *)
Definition change_link_name (s : System) (old new : string) : result System :=
  do i <- name_to_idx s old; Ok (set_names s (list_set (link_names s) i new)).

(** base.py 487-495 (and 463-464 with empty suffix) *)
Definition add_prefix_suffix (s : System) (pre suf : string) : System :=
  set_names s (map (fun n => (pre ++ n ++ suf)%string) (link_names s)).

(** ** _update_sys_if_replace_joint_type, base.py 842-878 *)
Definition set_joint_arrays (s : System) (t : list string) (d a st z : list K) : System :=
  mkSys (link_parents s) (links s) t d a st z (sys_dt s) (geoms s) (gravity s)
        (integration_method s) (mass_mat_iters s) (link_names s) (model_name s) (omc s).

Definition jlogic := string -> string -> dasz -> (string * dasz).

Definition update_joint_types (s : System) (logic : jlogic) : result System :=
  do _ <- assert_ (length (link_names s) =? num_links s)%nat;
  do _ <- assert_ (length (link_types s) =? num_links s)%nat;
  do arrs <- per_link_arrays s;
  let new := map (fun x => logic (fst (fst x)) (snd (fst x)) (snd x))
                 (combine (combine (link_names s) (link_types s)) arrs) in
  do la <- concatenate (map (fun x => snd (fst (fst (snd x)))) new);
  do ld <- concatenate (map (fun x => fst (fst (fst (snd x)))) new);
  do ls <- concatenate (map (fun x => snd (fst (snd x))) new);
  do lz <- concatenate (map (fun x => snd (snd x)) new);
  parse (set_joint_arrays s (map fst new) ld la ls lz).

(** base.py 497-526 *)
Definition cor_compatible (s : System) : bool :=
  forallb (fun pt => let '(p, t) := pt in
             negb (((p =? -1) && negb (String.eqb t "free")) || (String.eqb t "free" && negb (p =? -1))))
          (combine (link_parents s) (link_types s)).
Definition logic_cor : jlogic := fun _ t x =>
  let '(d, a, st, z) := x in
  if String.eqb t "free" then
    ("cor"%string, (d ++ skipn 3 d, a ++ skipn 3 a, st ++ skipn 3 st, z ++ skipn 4 z))
  else (t, x).
Definition replace_free_with_cor (s : System) : result System :=
  if cor_compatible s then update_joint_types s logic_cor else Err EInvalidSystem.

(** base.py 528-544 *)
Definition logic_freeze (name : string) : jlogic := fun n t x =>
  if String.eqb n name then ("frozen"%string, ([], [], [], [])) else (t, x).
Definition freeze (s : System) (name : string) : result System :=
  update_joint_types s (logic_freeze name).
Definition freeze_list (s : System) (names : list string) : result System := foldM freeze s names.

(** base.py 552-592.  The optional arrays are [option]s.  [reload] stands for
    [sys.from_str(sys.to_str(), seed)] which runs when the joint model has an
    init_joint_params function ([has_init], a property of the registered joint model). *)
Variable registered : string -> bool.
Variable has_init : string -> bool.
Variable reload : System -> result System.

Definition opt_or {A} (o : option A) (d : A) : A := match o with Some a => a | None => d end.
Definition set_head (l : list K) : list K := match l with [] => [] | _ :: r => kone ops :: r end.

Definition logic_change (name typ : string) (qn dn : nat)
    (na nd ns nz : option (list K)) : jlogic := fun n t x =>
  if String.eqb n name then
    let qz := repeat (kzero ops) qn in
    let dz := repeat (kzero ops) dn in
    let z0 := opt_or nz qz in
    let z := if memS typ ["spherical"; "free"; "cor"]%string
             then match nz with None => set_head z0 | Some _ => z0 end else z0 in
    (typ, (opt_or nd dz, opt_or na dz, opt_or ns dz, z))
  else (t, x).

Definition change_joint_type (s : System) (name typ : string)
    (na nd ns nz : option (list K)) : result System :=
  do qn <- wget (qW W) typ;
  do dn <- wget (dW W) typ;
  do s' <- update_joint_types s (logic_change name typ qn dn na nd ns nz);
  do _ <- assert_ (registered typ);
  if has_init typ then reload s' else Ok s'.

(** base.py 546-550 *)
Definition unfreeze (s : System) (name typ : string) : result System :=
  do i <- name_to_idx s name;
  do t <- py_get (link_types s) (Z.of_nat i);
  do _ <- assert_ (String.eqb t "frozen");
  do _ <- assert_ (negb (String.eqb typ "frozen"));
  change_joint_type s name typ None None None None.

(** ** Lookups, base.py 622-662 *)
Definition is_imu_name (n : string) : bool := prefix_eqb 3 "imu" n.
Definition findall_imus (s : System) : list string := filter is_imu_name (link_names s).
Definition findall_segments (s : System) : list string :=
  filter (fun n => negb (memS n (findall_imus s))) (link_names s).
Definition findall_bodies_to_world (s : System) : list nat :=
  map fst (filter (fun ip => snd ip =? -1) (enum (link_parents s))).
Definition find_body_to_world (s : System) : result nat :=
  match findall_bodies_to_world s with [i] => Ok i | _ => Err EAssertion end.
(** base.py 649-653 *)
Definition children (s : System) (name : string) : result (list nat) :=
  do p <- name_to_idx s name;
  Ok (map fst (filter (fun ip => snd ip =? Z.of_nat p) (enum (link_parents s)))).
Definition children_names (s : System) (name : string) : result (list string) :=
  do cs <- children s name; mapM (fun i => idx_to_name s (Z.of_nat i) false) cs.
(** base.py 655-662 (names=True); [tree.flatten] concatenates children, then grandchildren. *)
Fixpoint findall_bodies_subsystem (fuel : nat) (s : System) (name : string) : result (list string) :=
  match fuel with
  | 0%nat => Err EOutOfFuel
  | S k => do cs <- children_names s name;
           do gs <- mapM (findall_bodies_subsystem k s) cs;
           Ok (cs ++ concat gs)
  end.

(** ** State.create default coordinates, base.py 1067-1083 *)
Definition state_create_q (s : System) : result (list K) :=
  do n <- q_size s;
  do sls <- idx_slices (qW W) s;
  do _ <- idx_slices (dW W) s;
  do _ <- assert_ (length (link_types s) =? num_links s)%nat;
  foldM (fun q it =>
           if is_free_or_cor_or_spherical (snd it) then
             match nth_error sls (fst it) with
             | Some sl => Ok (list_set q (fst sl) (kone ops)) | None => Err EKey end
           else Ok q)
        (repeat (kzero ops) n) (enum (link_types s)).

(** ** coordinate_vector_to_q, base.py 811-839: [to_q t] is the joint model's (or custom)
    preprocessing function, [None] when there is none. *)
Definition coordinate_vector_to_q (to_q : string -> option (list K -> list K)) (s : System)
    (q : list K) : result (list K) :=
  do sls <- slices_of (qW W) s q;
  do _ <- assert_ (length (link_types s) =? num_links s)%nat;
  do qs <- mapM (fun tx => match to_q (fst tx) with
                           | Some f => Ok (f (snd tx)) | None => Err ENotImpl end)
                (combine (link_types s) sls);
  concatenate qs.

End Sys.

Arguments One {V} v.
Arguments Many {V} vs.
