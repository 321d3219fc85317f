(** * Model of src/ring/utils/batchsize.py and of parts of src/ring/utils/utils.py *)
From Coq Require Import String ZArith Bool Arith List.
From Verif Require Import Prelude.
Import ListNotations.
Local Open Scope nat_scope.

(** ** Numbers.  Python ints that are sizes or counts are naturals here. *)

(** utils.py 174-177: the inner loop [while (n % d) == 0]; returns the appended factors and the remaining n *)
Fixpoint strip (fuel d n : nat) : result (list nat * nat) :=
  match fuel with
  | 0 => Err EOutOfFuel
  | S f => if n mod d =? 0 then do r <- strip f d (n / d); Ok (d :: fst r, snd r) else Ok ([], n)
  end.
(** utils.py 172-178: the outer loop [while d * d <= n] *)
Fixpoint factor_loop (fuel d n : nat) : result (list nat * nat) :=
  match fuel with
  | 0 => Err EOutOfFuel
  | S f =>
      if d * d <=? n then
        do r <- strip (S n) d n;
        do r2 <- factor_loop f (S d) (snd r);
        Ok (fst r ++ fst r2, snd r2)
      else Ok ([], n)
  end.
(** utils.py 168-181 *)
Definition primes (n : nat) : result (list nat) :=
  do r <- factor_loop (S n) 2 n;
  Ok (fst r ++ (if 1 <? snd r then [snd r] else [])).

(** utils.py 182-185 *)
Fixpoint gcd_loop (fuel a b : nat) : result nat :=
  match fuel with
  | 0 => Err EOutOfFuel
  | S f => if b =? 0 then Ok a else gcd_loop f b (a mod b)
  end.
Definition gcd (a b : nat) : result nat := gcd_loop (S b) a b.

(** ** batchsize.py *)
(** The facts about the machine: minimal size for vmap, size from which generators run eagerly, number of devices. *)
Record machine := mkMachine { vmap_size_min : nat; eager_threshold : nat; n_devices : nat }.
(** batchsize.py 7-20: the two machines with default values, with any number of devices *)
Definition cpu (devices : nat) : machine := mkMachine 1 4 devices.
Definition gpu (devices : nat) : machine := mkMachine 8 32 devices.
(** batchsize.py 23-36.  int(a / b) is floor division here; the float quotient is exact whenever it is used. *)
Definition distribute_batchsize (m : machine) (batchsize : nat) : result (nat * nat) :=
  if batchsize <=? vmap_size_min m then Ok (1, batchsize)
  else
    do _ <- assert_ (batchsize mod n_devices m =? 0);
    let vmap := batchsize / n_devices m in
    Ok (batchsize / vmap, vmap).

(** batchsize.py 39-50: an array is the list of its rows along the first axis; reshape raises when the sizes differ *)
Definition merge_batchsize {A} (x : list (list A)) (pmap vmap : nat) : result (list A) :=
  if length (concat x) =? pmap * vmap then Ok (concat x) else Err EType.
Definition merge_batchsize3 {A} (x : list (list (list A))) (pmap vmap : nat) : result (list A) :=
  if length (concat x) =? pmap * vmap then Ok (concat (concat x)) else Err EType.
(** batchsize.py 53-64 *)
Definition expand_batchsize {A} (x : list A) (pmap vmap : nat) : result (list (list A)) :=
  if length x =? pmap * vmap then Ok (map (fun i => firstn vmap (skipn (i * vmap) x)) (seq 0 pmap)) else Err EType.

(** ** utils.py 188-228: replace_elements_w_nans *)
Section Nan.
Context {A : Type} (isnan : A -> bool).
(** utils.py 221-226: [draws] are the positions drawn by random.choice(include_elements); the loop draws until a
    usable element comes up, so it needs more draws than given when none of them is usable. *)
Fixpoint draw_good (data : list A) (incl : list nat) (draws : list nat) : result (A * list nat) :=
  match draws with
  | [] => Err EOutOfFuel
  | d :: r =>
      match nth_error incl d with
      | None => Err EIndex
      | Some j => match nth_error data j with
                  | None => Err EIndex
                  | Some e => if isnan e then draw_good data incl r else Ok (e, r)
                  end
      end
  end.
(** utils.py 217-228 *)
Fixpoint replace_loop (data : list A) (incl : list nat) (todo : list A) (draws : list nat) : result (list A) :=
  match todo with
  | [] => Ok []
  | e :: r =>
      do ed <- (if isnan e then draw_good data incl draws else Ok (e, draws));
      do es <- replace_loop data incl r (snd ed);
      Ok (fst ed :: es)
  end.
(** utils.py 188-216.  min and max of an empty sequence raise ValueError; nan fraction 1 raises AssertionError.
    Elements of include_elements below zero are rejected by an assertion and are not representable here. *)
Definition replace_elements_w_nans (data : list A) (include_elements : option (list nat)) (draws : list nat) : result (list A) :=
  let incl := match include_elements with Some l => l | None => seq 0 (length data) end in
  match incl with
  | [] => Err EValue
  | _ =>
      do _ <- assert_ (forallb (fun j => j <? length data) incl);
      do _ <- assert_ (negb (forallb isnan data));
      replace_loop data incl data draws
  end.
End Nan.

(** ** utils.py 71-95: dict_union, on a store of dictionary objects.

    A top-level dictionary maps keys to arrays or to references to inner dictionaries; inner dictionaries map keys to
    values that are never modified (arrays, or deeper dictionaries, which dict_union only moves around). *)
Section Union.
Context {A : Type}.
Inductive cell := Leaf (a : A) | Ref (addr : nat).
Record store := mkStore { tops : list (list (string * cell)); inners : list (list (string * A)) }.
Definition set_at {B} (l : list B) (i : nat) (v : B) : list B := firstn i l ++ v :: skipn (S i) l.
(** utils.py 115-131 for such a dictionary: fresh objects with equal content *)
Fixpoint copy_cells (st : store) (d : list (string * cell)) : result (store * list (string * cell)) :=
  match d with
  | [] => Ok (st, [])
  | (k, Leaf a) :: r => do x <- copy_cells st r; Ok (fst x, (k, Leaf a) :: snd x)
  | (k, Ref addr) :: r =>
      match nth_error (inners st) addr with
      | None => Err EOther
      | Some inner =>
          do x <- copy_cells (mkStore (tops st) (inners st ++ [inner])) r;
          Ok (fst x, (k, Ref (length (inners st))) :: snd x)
      end
  end.
Definition deepcopy (st : store) (addr : nat) : result (store * nat) :=
  match nth_error (tops st) addr with
  | None => Err EOther
  | Some d => do x <- copy_cells st d; Ok (mkStore (tops (fst x) ++ [snd x]) (inners (fst x)), length (tops (fst x)))
  end.
(** dict.update *)
Definition dupdate (d e : list (string * A)) : list (string * A) := fold_left (fun acc kv => dset String.eqb acc (fst kv) (snd kv)) e d.
(** utils.py 81-94: the body of the loop for one key of d2; d1 is the dictionary object at address [a1] *)
Definition union_step (overwrite : bool) (a1 : nat) (st : store) (kv : string * cell) : result store :=
  match nth_error (tops st) a1 with
  | None => Err EOther
  | Some d1 =>
      match dget String.eqb d1 (fst kv) with
      | None => Ok (mkStore (set_at (tops st) a1 (dset String.eqb d1 (fst kv) (snd kv))) (inners st))
      | Some v1 =>
          match snd kv, v1 with
          | Ref r2, Ref r1 =>
              match nth_error (inners st) r1, nth_error (inners st) r2 with
              | Some i1, Some i2 =>
                  do _ <- (if overwrite then Ok tt else assert_ (forallb (fun e => negb (dmem String.eqb i1 (fst e))) i2));
                  Ok (mkStore (tops st) (set_at (inners st) r1 (dupdate i1 i2)))
              | _, _ => Err EOther
              end
          | _, _ => Err EOther
          end
      end
  end.
(** utils.py 71-95: takes and returns the address of a dictionary object *)
Definition dict_union (st : store) (a1 a2 : nat) (overwrite : bool) : result (store * nat) :=
  do x1 <- deepcopy st a1;
  do x2 <- deepcopy (fst x1) a2;
  match nth_error (tops (fst x2)) (snd x2) with
  | None => Err EOther
  | Some d2 => do st <- foldM (union_step overwrite (snd x1)) (fst x2) d2; Ok (st, snd x1)
  end.
End Union.
