(** * ring/utils/randomize_sys.py, index level: which links lie below a link. *)
From Coq Require Import String ZArith Bool List.
From Verif Require Import Prelude M_Sys.
Import ListNotations.
Local Open Scope Z_scope.

(** randomize_sys.py 15-26: [_find_children].  The loop over [range(len(lam))] with the recursive call
    in its body; recursion is bounded by explicit fuel. *)
Fixpoint find_children (fuel : nat) (lam : list Z) (body : nat) : result (list nat) :=
  match fuel with
  | 0%nat => Err EOutOfFuel
  | S k =>
      do gs <- mapM (fun ip => if snd ip =? Z.of_nat body
                               then do r <- find_children k lam (fst ip); Ok (fst ip :: r)
                               else Ok []) (enum lam);
      Ok (concat gs)
  end.

(** base.py 655-662 with [names=False]: the names are looked up again. *)
Definition findall_bodies_subsystem_idx {K L G O} (fuel : nat) (s : System K L G O) (name : string) : result (list nat) :=
  do l <- findall_bodies_subsystem fuel s name; mapM (name_to_idx s) l.

(** ** randomize_anchors *)

(** [itertools.product( *ls )]: the last component varies fastest. *)
Fixpoint iproduct {A} (ls : list (list A)) : list (list A) :=
  match ls with
  | [] => [[]]
  | l :: r => flat_map (fun x => map (cons x) (iproduct r)) l
  end.

Definition mem_nat (i : nat) (l : list nat) : bool := existsb (Nat.eqb i) l.

Section Anchors.
Context {K L G O : Type}.
Notation Sys := (System K L G O).
Variable delete : Sys -> list string -> result Sys.      (* System.delete_system(names), strict *)
Variable reanchor : Sys -> string -> result Sys.         (* System.morph_system(new_anchor=name) *)
Variable inject : Sys -> Sys -> result Sys.              (* System.inject_system(sub) at the world *)
Variable set_order : list string -> list string.         (* iteration order of a Python set *)

Definition below_fuel (s : Sys) : nat := S (num_links s).

(** randomize_sys.py 29-35: the loop returns at the first root whose subtree contains the body; [None]
    when the loop ends. *)
Fixpoint first_root (s : Sys) (body_i : nat) (l : list (nat * Z)) : result (option string) :=
  match l with
  | [] => Ok None
  | (i, p) :: r =>
      if p =? -1 then
        if (body_i =? i)%nat then do n <- idx_to_name s (Z.of_nat i) false; Ok (Some n)
        else do cs <- find_children (below_fuel s) (link_parents s) i;
             if mem_nat body_i cs then do n <- idx_to_name s (Z.of_nat i) false; Ok (Some n)
             else first_root s body_i r
      else first_root s body_i r
  end.
Definition find_root (s : Sys) (body : string) : result (option string) :=
  do i <- name_to_idx s body; first_root s i (enum (link_parents s)).

(** randomize_sys.py 38-49 *)
Definition anchors_of_root (s : Sys) (anchors : list string) (i : nat) : result (list string) :=
  do cs <- find_children (below_fuel s) (link_parents s) i;
  do ns <- mapM (fun j => idx_to_name s (Z.of_nat j) false) (i :: cs);
  match filter (fun nm => memS nm ns) anchors with
  | [] => do n <- idx_to_name s (Z.of_nat i) false; Ok [n]
  | l => Ok l
  end.
Definition assign_anchors (s : Sys) (anchors : list string) : result (list (list string)) :=
  mapM (anchors_of_root s anchors) (findall_bodies_to_world s).

(** randomize_sys.py 52-56 *)
Definition morph_extract (s : Sys) (anchor : string) : result Sys :=
  do root <- find_root s anchor;
  do roots <- mapM (fun j => idx_to_name s (Z.of_nat j) false) (findall_bodies_to_world s);
  let others := set_order (filter (fun n => match root with Some r => negb (String.eqb n r) | None => true end) roots) in
  do sub <- delete s others;
  reanchor sub anchor.

(** randomize_sys.py 59-74 *)
Definition combine_anchors (s : Sys) (combo : list string) : result Sys :=
  match combo with
  | [] => Err EIndex
  | a :: r => do s0 <- morph_extract s a;
              foldM (fun acc b => do sub <- morph_extract s b; inject acc sub) s0 r
  end.
Definition randomize_anchors (s : Sys) (anchors : option (list string)) : result (list Sys) :=
  let an := match anchors with Some l => l | None => findall_segments s end in
  do choices <- assign_anchors s an;
  mapM (combine_anchors s) (iproduct choices).
End Anchors.

(** ** randomize_hz, randomize_sys.py 80-105, on the two quantities it changes.  [T] of the first
    configuration is used for all of them; the check on the configurations' lengths only tests that
    there is at least one. *)
Section Hz.
Context {S C F : Type}.
Variable dt_of : S -> F.
Variable set_dt : S -> F -> S.
Variable T_of : C -> F.
Variable set_T : C -> F -> C.
Variable mul div : F -> F -> F.
Variable one : F.
Definition randomize_hz (sys : list S) (configs : list C) (rates : list F) : result (list S * list C) :=
  match configs with
  | [] => Err EAssertion
  | c0 :: _ =>
      let all := flat_map (fun s => flat_map (fun c => map (fun hz =>
                   let dt := div one hz in (set_dt s dt, set_T c (mul (div (T_of c0) (dt_of s)) dt))) rates) configs) sys in
      Ok (map fst all, map snd all)
  end.
End Hz.
