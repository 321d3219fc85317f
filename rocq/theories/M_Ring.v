(** * ring/ml/ringnet.py: the message-passing cell, its unrolling over time, and the batched network.

    The learned functions (message network, recurrent cell, output network) are parameters; messages are
    elements of a structure with a zero and an addition (vectors of real numbers). *)
From Coq Require Import ZArith Bool List.
From Verif Require Import Prelude.
Import ListNotations.

(** Indexing a jax array by a Python integer: negative indices count from the end, indices outside are clamped
    (jax does not raise). *)
Definition jax_get {A} (l : list A) (i : Z) : result A :=
  let n := Z.of_nat (length l) in
  let j := if (i <? 0)%Z then (i + n)%Z else i in
  match nth_error l (Z.to_nat (Z.max 0 (Z.min j (n - 1)))) with Some x => Ok x | None => Err EIndex end.

Section Ring.
Context {X H S Y M CI CO : Type}.
Variables (mzero : M) (madd : M -> M -> M).
Variable hidden : S -> H.                      (* prev_state[-1, :hidden_state_dim] of one link *)
Variable send_msg : H -> M.
Variable cat : X -> M -> M -> CI.              (* batch_concat of local input, parent message, mailbox *)
Variable inner_cell : CI -> S -> CO * S.
Variable send_output : CO -> Y.                (* output_transform after send_output *)

Definition msum (l : list M) : M := fold_right madd mzero l.

(** ringnet.py 47-55: jnp.sum over all links of where(parent == link, msg, 0) *)
Definition mailbox (lam : list Z) (msgs : list M) (link : nat) : M :=
  msum (map (fun pm => if (fst pm =? Z.of_nat link)%Z then snd pm else mzero) (combine lam msgs)).

(** ringnet.py 59-64 *)
Definition cell_input (lam : list Z) (inputs : list X) (msgs : list M) (i : nat) (p : Z) : result CI :=
  do x <- jax_get inputs (Z.of_nat i);
  do m <- jax_get (msgs ++ [mzero]) p;
  Ok (cat x m (mailbox lam msgs i)).

(** ringnet.py 35-74.  jnp.where and vmap need as many states as links. *)
Definition cell_apply (lam : list Z) (inputs : list X) (prev : list S) : result (list Y * list S) :=
  if negb (length prev =? length lam)%nat then Err EValue
  else
    let msgs := map (fun s => send_msg (hidden s)) prev in
    do cis <- mapM (fun ip => cell_input lam inputs msgs (fst ip) (snd ip)) (enum lam);
    let r := map (fun cs => let (o, s') := inner_cell (fst cs) (snd cs) in (send_output o, s')) (combine cis prev) in
    Ok (map fst r, map snd r).

(** hk.dynamic_unroll, ringnet.py 125-137 *)
Fixpoint unroll (lam : list Z) (xs : list (list X)) (st : list S) : result (list (list Y) * list S) :=
  match xs with
  | [] => Ok ([], st)
  | x :: r => do ys <- cell_apply lam x st;
              do rest <- unroll lam r (snd ys);
              Ok (fst ys :: fst rest, snd rest)
  end.

(** ringnet.py 269-271: vmap over states and inputs, in_axes=(None, 0, 0).  vmap needs equal batch sizes. *)
Definition ring_batched (lam : list Z) (sts : list (list S)) (Xs : list (list (list X))) : result (list (list (list Y)) * list (list S)) :=
  if negb (length sts =? length Xs)%nat then Err EValue
  else do rs <- mapM (fun sx => unroll lam (snd sx) (fst sx)) (combine sts Xs);
       Ok (map fst rs, map snd rs).

(** ringnet.py 115-123: the initial state. *)
Variable szero : S.
Definition init_state (lam : list Z) : list S := repeat szero (length lam).
(** ringnet.py 255-273 with parameters fixed: the initial state is repeated for every batch element (250-251). *)
Definition ring_apply_batched (lam : list Z) (sts : option (list (list S))) (Xs : list (list (list X))) :=
  ring_batched lam (match sts with Some s => s | None => repeat (init_state lam) (length Xs) end) Xs.
End Ring.
