(** * Model of the data generators: src/ring/algorithms/generator/base.py and batch.py

    A generator of one system takes a random key and returns the list of its sequences (the rows along the leading axis),
    one per motion configuration.  The random number library is an argument: [split] gives the keys of
    jax.random.split(key, n). *)
From Coq Require Import String ZArith Bool Arith List.
From Verif Require Import Prelude M_Util.
Import ListNotations.
Local Open Scope nat_scope.

(** The argument [sizes]: an int, or one int per system.  Sizes are naturals here; for negative ones the assertions at
    base.py 115 and 109 fail. *)
Inductive sizes := Total (n : nat) | PerSystem (l : list nat).

(** base.py 103-132: [n] motion configurations, [L] systems; so S = n * L *)
Definition compute_repeats (n L : nat) (sz : sizes) : result (list nat) :=
  match sz with
  | Total size =>
      if n * L =? 0 then Err EZeroDiv
      else
        do _ <- assert_ (0 <? size / (n * L));
        do _ <- assert_ (size mod (n * L) =? 0);
        Ok (repeat (size / (n * L)) L)
  | PerSystem l =>
      do _ <- mapM (fun size => do ps <- primes size; assert_ (existsb (Nat.eqb n) ps)) l;
      do _ <- assert_ (length l =? L);
      let repeats := map (fun size => size / n) l in
      do _ <- assert_ (negb (existsb (Nat.eqb 0) repeats));
      Ok repeats
  end.

(** base.py 145-149: the loop; [next(primes)] of an exhausted iterator raises StopIteration; the float quotient vmap / prime
    is exact because the prime divides vmap *)
Fixpoint exec_loop (threshold : nat) (ps : list nat) (vmap n_calls : nat) : result nat :=
  if threshold <? vmap then
    match ps with
    | [] => Err EStopIteration
    | p :: r => exec_loop threshold r (vmap / p) (n_calls * p)
    end
  else Ok n_calls.
(** base.py 140-151 *)
Definition number_of_executions_required (m : machine) (size : nat) : result nat :=
  do pv <- distribute_batchsize m size;
  do ps <- primes (snd pv);
  exec_loop (eager_threshold m) ps (snd pv) 1.

(** batch.py 13-17 *)
Definition build_batch_matrix (batchsizes : list nat) : list nat := concat (map (fun il => repeat (fst il) (snd il)) (combine (seq 0 (length batchsizes)) batchsizes)).

Section Gen.
Context {K A : Type} (m : machine) (split : K -> nat -> list K).
Notation generator := (K -> list A).

(** jax.lax.switch clamps the index; without branches it raises ValueError *)
Definition switch (gens : list generator) (i : nat) (key : K) : result (list A) :=
  match nth_error gens (Nat.min i (length gens - 1)) with
  | Some g => Ok (g key)
  | None => Err EValue
  end.
(** batch.py 20-52: the outer result is an error at construction, the inner one at a call.  jit and pmap do not change
    values.  An array of total size [pmap * vmap] is reshaped by [expand_batchsize]. *)
Definition generators_lazy (gens : list generator) (repeats : list nat) : result (K -> result (list A)) :=
  let batch_arr := build_batch_matrix repeats in
  let bs_total := length batch_arr in
  do pv <- distribute_batchsize m bs_total;
  do batch_arr <- expand_batchsize batch_arr (fst pv) (snd pv);
  Ok (fun key =>
    do keys <- expand_batchsize (split key bs_total) (fst pv) (snd pv);
    do data <- mapM (fun row => mapM (fun ki => switch gens (snd ki) (fst ki)) (combine (fst row) (snd row))) (combine keys batch_arr);
    merge_batchsize3 data (fst pv) (snd pv)).

(** batch.py 72-79: the calls of one generator; [cb] is the callback with its state *)
Fixpoint eager_calls {St} (cb : St -> list A -> result St) (gen : K -> result (list A)) (n_call : nat) (key : K) (st : St) : result (K * St) :=
  match n_call with
  | 0 => Ok (key, st)
  | S c =>
      match split key 2 with
      | [key'; consume] =>
          do sample <- gen consume;
          do st' <- cb st sample;
          eager_calls cb gen c key' st'
      | _ => Err EValue
      end
  end.
(** batch.py 55-86.  A sample is unstacked along its leading axis before the callback. *)
Fixpoint generators_eager {St} (cb : St -> list A -> result St) (gens : list (K -> result (list A))) (n_calls : list nat) (key : K) (st : St) : result St :=
  match gens, n_calls with
  | g :: gs, c :: cs => do r <- eager_calls cb g c key st; generators_eager cb gs cs (fst r) (snd r)
  | _, _ => Ok st
  end.

(** base.py 134-137 *)
Definition to_lazy_gen (gens : list generator) (n : nat) (sz : sizes) : result (K -> result (list A)) :=
  do repeats <- compute_repeats n (length gens) sz;
  generators_lazy gens repeats.

(** base.py 153-173: self._size_of_generators is [repeat n (length gens)] *)
Definition generators_ncalls (gens : list generator) (n : nat) (sz : sizes) : result (list (K -> result (list A)) * list nat) :=
  do repeats <- compute_repeats n (length gens) sz;
  let szs := map (fun r => r * n) repeats in
  do rc <- mapM (fun sr => do n_call <- number_of_executions_required m (fst sr);
                           do g <- gcd n_call (snd sr);
                           Ok (snd sr / g, g)) (combine szs repeats);
  do gs <- mapM (fun gr => generators_lazy [fst gr] [snd gr]) (combine gens (map fst rc));
  Ok (gs, map snd rc).

(** base.py 175-185; [key] is jax.random.PRNGKey(seed) *)
Definition to_list (gens : list generator) (n : nat) (sz : sizes) (key : K) : result (list A) :=
  do gc <- generators_ncalls gens n sz;
  generators_eager (fun data d => Ok (data ++ d)) (fst gc) (snd gc) key [].
End Gen.

(** ** base.py 238-261: eager_gen_from_list

    List objects live in a heap; an address is a position in it. *)
Section Eager.
Context {A : Type}.
Record gen_state := mkGen { g_heap : list (list A); g_addr : nat; g_batchsize : nat; g_n : nat; g_i : nat }.
(** base.py 244-246: data.copy() makes a new list object *)
Definition eager_gen_from_list (heap : list (list A)) (addr batchsize : nat) : result gen_state :=
  match nth_error heap addr with
  | None => Err EOther
  | Some data =>
      if batchsize =? 0 then Err EZeroDiv
      else Ok (mkGen (heap ++ [data]) (length heap) batchsize (length data / batchsize) 0)
  end.
(** base.py 248-261: one call; [sh] is the effect of random.shuffle.  tree_batch of an empty list raises IndexError, the
    modulo of zero batches ZeroDivisionError. *)
Definition eager_call (shuffle : bool) (sh : list A -> list A) (g : gen_state) : result (gen_state * list A) :=
  match nth_error (g_heap g) (g_addr g) with
  | None => Err EOther
  | Some data =>
      let data := if shuffle && (g_i g =? 0) then sh data else data in
      let start := g_i g * g_batchsize g in
      let batch := firstn (g_batchsize g) (skipn start data) in
      match batch with
      | [] => Err EIndex
      | _ =>
          if g_n g =? 0 then Err EZeroDiv
          else Ok (mkGen (set_at (g_heap g) (g_addr g) data) (g_addr g) (g_batchsize g) (g_n g) ((g_i g + 1) mod g_n g), batch)
      end
  end.
(** A history: calls of the generator, and assignments to other list objects by the rest of the program. *)
Inductive event := Call (sh : list A -> list A) | Assign (addr : nat) (l : list A).
Fixpoint eager_run (shuffle : bool) (g : gen_state) (es : list event) : result (gen_state * list (list A)) :=
  match es with
  | [] => Ok (g, [])
  | Call sh :: r =>
      do x <- eager_call shuffle sh g;
      do y <- eager_run shuffle (fst x) r;
      Ok (fst y, snd x :: snd y)
  | Assign a l :: r =>
      eager_run shuffle (mkGen (set_at (g_heap g) a l) (g_addr g) (g_batchsize g) (g_n g) (g_i g)) r
  end.
End Eager.
