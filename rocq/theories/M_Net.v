(** * The layers inside of the networks: src/ring/ml/ringnet.py 78-201 (make_ring, StackedRNNCell, LSTM) and src/ring/ml/rnno_v1.py,
    with the layers of dm-haiku they are made of (hk.Linear, hk.nets.MLP, hk.GRU, hk.LayerNorm, hk.dynamic_unroll).
    The weights are arbitrary.  haiku makes them fit the shapes of the inputs, so sizes are not checked here: an entry that does not exist
    counts as zero.  Real arithmetic instead of floating point. *)
From Coq Require Import Reals String ZArith Bool Arith List.
From Verif Require Import Prelude M_Dyn M_Ring M_Filter.
Import ListNotations.
Local Open Scope R_scope.

Definition vec := list R.
Definition at_ (v : vec) (i : nat) : R := nth i v 0.
(** jnp.matmul of a vector with column j of a matrix *)
Definition col (w : nat -> nat -> R) (v : vec) (j : nat) : R := sumR (length v) (fun i => at_ v i * w i j).
Definition build (n : nat) (f : nat -> R) : vec := map f (seq 0 n).
(** jax.nn.sigmoid, jax.nn.relu, jax.nn.elu *)
Definition sigmoid (x : R) : R := / (1 + exp (- x)).
Definition relu (x : R) : R := Rmax x 0.
Definition elu (x : R) : R := if Rlt_dec 0 x then x else exp x - 1.

(** hk.Linear *)
Record linear := { l_out : nat; l_w : nat -> nat -> R; l_b : nat -> R }.
Definition affine (l : linear) (x : vec) : vec := build (l_out l) (fun j => col (l_w l) x j + l_b l j).
(** hk.nets.MLP: an activation between the layers, none after the last *)
Fixpoint mlp (act : R -> R) (ls : list linear) (x : vec) : vec :=
  match ls with
  | [] => x
  | [l] => affine l x
  | l :: r => mlp act r (map act (affine l x))
  end.

(** hk.LayerNorm over the last axis, eps = 1e-5.  Without create_scale and create_offset: scale 1, offset 0. *)
Record lnorm := { n_scale : nat -> R; n_offset : nat -> R }.
Definition mean (x : vec) : R := sumR (length x) (at_ x) / INR (length x).
Definition variance (x : vec) : R := sumR (length x) (fun i => (at_ x i - mean x) ^ 2) / INR (length x).
Definition eps : R := / 10 ^ 5.
Definition layer_norm (n : lnorm) (x : vec) : vec :=
  build (length x) (fun i => n_scale n i * / sqrt (variance x + eps) * (at_ x i - mean x) + n_offset n i).

(** hk.GRU with hidden size h: the columns of the weights are z, r, a *)
Record gru_weights := { gw_i : nat -> nat -> R; gw_h : nat -> nat -> R; g_b : nat -> R }.
Definition gru (h : nat) (w : gru_weights) (x s : vec) : vec * vec :=
  let zr := fun j => sigmoid (col (gw_i w) x j + col (gw_h w) s j + g_b w j) in
  let z := fun j => zr j in
  let r := fun j => zr (h + j)%nat in
  let rs := build h (fun j => r j * at_ s j) in
  let a := fun j => tanh (col (gw_i w) x (2 * h + j) + col (gw_h w) rs (2 * h + j) + g_b w (2 * h + j)%nat) in
  let next := build h (fun j => (1 - z j) * at_ s j + z j * a j) in
  (next, next).

(** ringnet.py 178-200: LSTM.  The state is h followed by c. *)
Definition lstm (h : nat) (w : linear) (x s : vec) : vec * vec :=
  let prev_h := firstn h s in
  let prev_c := skipn h s in
  let x_and_h := x ++ prev_h in
  let gated := fun j => col (l_w w) x_and_h j + l_b w j in
  let i := fun j => gated j in
  let g := fun j => gated (h + j)%nat in
  let f := fun j => sigmoid (gated (2 * h + j)%nat + 1) in
  let o := fun j => gated (3 * h + j)%nat in
  let c := build h (fun j => f j * at_ prev_c j + sigmoid (i j) * tanh (g j)) in
  let h' := build h (fun j => sigmoid (o j) * tanh (at_ c j)) in
  (h', h' ++ c).

Inductive cell := Gru (w : gru_weights) | Lstm (w : linear).
Definition run_cell (h : nat) (c : cell) (x s : vec) : vec * vec :=
  match c with Gru w => gru h w x s | Lstm w => lstm h w x s end.

(** ringnet.py 143-176: StackedRNNCell; each cell with its layer norm, if any *)
Fixpoint stacked (h : nat) (cells : list (cell * option lnorm)) (x : vec) (state : list vec) : vec * list vec :=
  match cells with
  | [] => (x, [])
  | (c, n) :: r =>
      let (out, next) := run_cell h c x (nth 0 state []) in
      let out := match n with Some n => layer_norm n out | None => out end in
      let (y, rest) := stacked h r out (tl state) in
      (y, next :: rest)
  end.

(** ringnet.py 78-140: the weights and options of make_ring *)
Record ring_net := {
  hidden_dim : nat; message_dim : nat;
  send_msg_net : list linear;                 (* ringnet.py 102-104 *)
  cells : list (cell * option lnorm);         (* ringnet.py 106-112 *)
  send_output_net : list linear;              (* ringnet.py 113 *)
  output_transform : vec -> vec }.            (* ringnet.py 92-97 *)
(** ringnet.py 114-122 *)
Definition state_dim (h : nat) (c : cell) : nat := match c with Gru _ => h | Lstm _ => h * 2 end.
Definition zero_state (w : ring_net) : list vec := map (fun c => repeat 0 (state_dim (hidden_dim w) (fst c))) (cells w).
(** ringnet.py 36-53: messages are vectors *)
Definition vzeros (n : nat) : vec := repeat 0 n.
Fixpoint vadd (a b : vec) : vec := match a, b with x :: a, y :: b => (x + y) :: vadd a b | _, _ => [] end.
(** ringnet.py 41 *)
Definition last_hidden (w : ring_net) (s : list vec) : vec := firstn (hidden_dim w) (last s []).
(** forward of make_ring on one sequence: ringnet.py 99-138, the cell of M_Ring with these layers *)
Definition ring_forward (w : ring_net) (lam : list Z) (xs : list (list vec)) (st : list (list vec)) : result (list (list vec) * list (list vec)) :=
  unroll (vzeros (message_dim w)) vadd (last_hidden w) (mlp relu (send_msg_net w)) (fun x m b => x ++ m ++ b)
         (stacked (hidden_dim w) (cells w)) (fun co => output_transform w (mlp relu (send_output_net w) co)) lam xs st.
Definition ring_start (w : ring_net) (lam : list Z) : list (list vec) := M_Ring.init_state (zero_state w) lam.

(** ** rnno_v1.py *)
(** hk.dynamic_unroll of one cell *)
Fixpoint unroll_cell (h : nat) (c : cell) (xs : list vec) (s : vec) : list vec * vec :=
  match xs with
  | [] => ([], s)
  | x :: r => let (y, s1) := run_cell h c x s in let (ys, s2) := unroll_cell h c r s1 in (y :: ys, s2)
  end.
(** rnno_v1.py 36-43: layer by layer, each over the whole sequence *)
Record v1_layer := { v_units : nat; v_cell : cell; v_norm : option lnorm }.
Definition v1_after (act_rnn : R -> R) (l : v1_layer) (y : vec) : vec :=
  map act_rnn (match v_norm l with Some n => layer_norm n y | None => y end).
Fixpoint v1_rnn (act_rnn : R -> R) (ls : list v1_layer) (xs : list vec) (st : list vec) : list vec * list vec :=
  match ls with
  | [] => (xs, [])
  | l :: r =>
      let (ys, s) := unroll_cell (v_units l) (v_cell l) xs (nth 0 st []) in
      let (zs, rest) := v1_rnn act_rnn r (map (v1_after act_rnn l) ys) (tl st) in
      (zs, s :: rest)
  end.
(** rnno_v1.py 45-49: every linear layer is followed by the activation, the output layer is not *)
Definition v1_head (act_linear : R -> R) (lin : list linear) (out : linear) (x : vec) : vec :=
  affine out (fold_left (fun x l => map act_linear (affine l x)) lin x).
(** rnno_v1.py 31-50; the graph lam is not used.  Every time step has to have exactly one node. *)
Definition one_node (step : list vec) : result vec := match step with [x] => Ok x | _ => Err EAssertion end.
Definition v1_forward (act_rnn act_linear : R -> R) (ls : list v1_layer) (lin : list linear) (out : linear)
  (lam : list Z) (X : list (list vec)) (st : list vec) : result (list (list vec) * list vec) :=
  do xs <- mapM one_node X;
  let (ys, st') := v1_rnn act_rnn ls xs st in
  Ok (map (fun y => [v1_head act_linear lin out y]) ys, st').
(** rnno_v1.py 23-30: the cell and the size of its state per unit *)
Definition v1_factor (celltype : string) : result nat :=
  if (celltype =? "gru")%string then Ok 1%nat else if (celltype =? "lstm")%string then Ok 2%nat else Err ENotImpl.
(** ringnet.py 154 *)
Definition ring_factor (celltype : string) : result nat :=
  if (celltype =? "gru")%string then Ok 1%nat else if (celltype =? "lstm")%string then Ok 2%nat else Err EKey.
