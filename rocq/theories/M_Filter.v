(** * ring/ml/base.py: filters and filter wrappers; ring/ml/ringnet.py: RING; ring/__init__.py: RING.

    An unbatched array is a list over time of lists over links of feature vectors; a batched one is a list of
    those.  Python's dispatch on X.ndim is two functions here.  Assertions on X.shape[-1] are checked on every
    feature vector (so not for arrays without any). *)
From Coq Require Import Reals Lra ZArith String Bool List.
From Verif Require Import Prelude M_Math M_Ring.
Import ListNotations.
Local Open Scope R_scope.

Definition row := list R.
Definition arr3 := list (list row).          (* (T, N, F) *)
Definition lam_t := option (list Z).

Section Filter.
Context {P ST : Type}.                       (* parameters, state of one batch element *)

Record filter := mkFilter {
  f_batched : list arr3 -> option P -> option (list ST) -> option (list arr3) -> lam_t -> result (list arr3 * list ST);
  f_unbatched : arr3 -> option P -> option ST -> option arr3 -> lam_t -> result (arr3 * ST) }.

(** base.py 25-47: a filter that defines _apply_batched; _to_3d adds, _to_2d removes the batch axis. *)
Definition of_batched (fb : list arr3 -> option P -> option (list ST) -> option (list arr3) -> lam_t -> result (list arr3 * list ST)) : filter :=
  mkFilter fb (fun x p s y lam =>
    do r <- fb [x] p (option_map (fun s => [s]) s) (option_map (fun y => [y]) y) lam;
    do o <- jax_get (fst r) 0; do s' <- jax_get (snd r) 0; Ok (o, s')).

(** [None] stays [None]; otherwise element [i] of the batch (base.py 19-22). *)
Definition to_2d {A} (l : option (list A)) (i : nat) : result (option A) :=
  match l with None => Ok None | Some l => do a <- jax_get l (Z.of_nat i); Ok (Some a) end.

(** base.py 85-99: a filter that defines _apply_unbatched. *)
Definition of_unbatched (fu : arr3 -> option P -> option ST -> option arr3 -> lam_t -> result (arr3 * ST)) : filter :=
  mkFilter (fun X p s y lam =>
    do rs <- mapM (fun ix => do si <- to_2d s (fst ix); do yi <- to_2d y (fst ix); fu (snd ix) p si yi lam) (enum X);
    Ok (map fst rs, map snd rs)) fu.

(** ** RING, ringnet.py 202-273 *)
Section RING.
Variable forward : P -> list Z -> ST -> arr3 -> result (arr3 * ST).     (* forward_lam_factory(lam=lam).apply on one element *)
Variable init_params : list Z -> nat -> P.                              (* from seed 1 and the number of features *)
Variable init_state : list Z -> ST.
Variable own_params : option P.
Variable own_lam : lam_t.

Definition nfeat (x : arr3) : nat := match x with (f :: _) :: _ => length f | _ => 0%nat end.

(** ringnet.py 221-226 and 255-273; init (228-253) uses X[0]. *)
Definition ring_fb (X : list arr3) (p : option P) (s : option (list ST)) (y : option (list arr3)) (lam : lam_t) : result (list arr3 * list ST) :=
  match (match lam with Some l => Some l | None => own_lam end) with
  | None => Err EAssertion
  | Some l =>
      do p' <- match p, own_params with
               | Some p, _ => Ok p
               | None, Some p => Ok p
               | None, None => do x0 <- jax_get X 0; Ok (init_params l (nfeat x0))
               end;
      let s' := match s with Some s => s | None => repeat (init_state l) (length X) end in
      if negb (length s' =? length X)%nat then Err EValue
      else do rs <- mapM (fun sx => forward p' l (fst sx) (snd sx)) (combine s' X);
           Ok (map fst rs, map snd rs)
  end.
Definition ring_filter : filter := of_batched ring_fb.
End RING.

(** ** Wrappers that change X before, lam, or the output after the wrapped filter, element by element *)
Definition wrap (pre : arr3 -> result arr3) (lamf : lam_t -> lam_t) (post : arr3 -> option arr3 -> lam_t -> arr3 -> result arr3) (f : filter) : filter :=
  mkFilter
    (fun X p s y lam =>
       do X' <- mapM pre X;
       do r <- f_batched f X' p s y (lamf lam);
       do out <- mapM (fun ixo => do yi <- to_2d y (fst ixo); post (fst (snd ixo)) yi lam (snd (snd ixo))) (enum (combine X (fst r)));
       Ok (out, snd r))
    (fun x p s y lam =>
       do x' <- pre x;
       do r <- f_unbatched f x' p s y (lamf lam);
       do out <- post x y lam (fst r);
       Ok (out, snd r)).
Definition no_post : arr3 -> option arr3 -> lam_t -> arr3 -> result arr3 := fun _ _ _ o => Ok o.
Definition map_rows (g : row -> result row) (x : arr3) : result arr3 := mapM (mapM g) x.

(** *** ScaleX, base.py 248-264.  batch_concat_acme concatenates a dict in the order of its sorted keys. *)
Definition slices (r : row) : result (list (string * row)) :=
  match length r with
  | 6%nat => Ok [("acc", firstn 3 r); ("gyr", skipn 3 r)]
  | 9%nat => Ok [("acc", firstn 3 r); ("gyr", firstn 3 (skipn 3 r)); ("joint_axes", skipn 6 r)]
  | 10%nat => Ok [("acc", firstn 3 r); ("gyr", firstn 3 (skipn 3 r)); ("joint_axes", firstn 3 (skipn 6 r)); ("dt", firstn 1 (skipn 9 r))]
  | _ => Err EOther
  end%string.
Fixpoint insert_key (x : string * row) (l : list (string * row)) : list (string * row) :=
  match l with
  | [] => [x]
  | y :: r => if String.ltb (fst x) (fst y) then x :: y :: r else y :: insert_key x r
  end.
Definition concat_sorted (l : list (string * row)) : row := concat (map snd (fold_right insert_key [] l)).
Definition scale_row (factors : list (string * R)) (r : row) : result row :=
  do sl <- slices r;
  do sc <- mapM (fun kv => do f <- dgetE String.eqb factors (fst kv); Ok (fst kv, map (fun v => v * f) (snd kv))) sl;
  Ok (concat_sorted sc).
Definition scale_x (factors : list (string * R)) : filter -> filter := wrap (map_rows (scale_row factors)) (fun l => l) no_post.
(** base.py 234 *)
Definition default_factors : list (string * R) := [("gyr", 1 / (22 / 10)); ("acc", 1 / (981 / 100)); ("joint_axes", 1 / (57 / 100)); ("dt", 10)]%string.

(** *** AddTs, base.py 312-325 *)
Definition add_ts_row (Ts : option R) (r : row) : result row :=
  match Ts with
  | None => do _ <- assert_ (length r =? 10)%nat; Ok r
  | Some t => do _ <- assert_ (length r =? 9)%nat; Ok (r ++ [1 * t])
  end.
Definition add_ts (Ts : option R) : filter -> filter := wrap (map_rows (add_ts_row Ts)) (fun l => l) no_post.

(** *** GroundTruthHeading, base.py 212-231 *)
Definition quat_of_row (r : row) : result quat := match r with [w; x; y; z] => Ok (Q4 w x y z) | _ => Err EValue end.
Definition row_of_quat (q : quat) : row := [qw q; qx q; qy q; qz q].
Definition heading_row (y yhat : row) : result row :=
  do a <- quat_of_row y; do b <- quat_of_row yhat; Ok (row_of_quat (quat_transfer_heading a b)).
(** One time step: only the links whose parent is -1. *)
Definition heading_step (lam : list Z) (y yhat : list row) : result (list row) :=
  mapM (fun ir => match nth_error lam (fst ir) with
                  | Some (-1)%Z => do yi <- jax_get y (Z.of_nat (fst ir)); heading_row yi (snd ir)
                  | _ => Ok (snd ir)
                  end) (enum yhat).
(** [attr_lam] is what search_attr("lam") finds. *)
Definition heading_post (attr_lam : result lam_t) (x : arr3) (y : option arr3) (lam : lam_t) (yhat : arr3) : result arr3 :=
  do l <- match lam with Some l => Ok (Some l) | None => attr_lam end;
  match y with
  | None => Ok yhat
  | Some y => match l with
              | None => Err EAssertion
              | Some l => if negb (length y =? length yhat)%nat then Err EValue
                          else mapM (fun yo => heading_step l (fst yo) (snd yo)) (combine y yhat)
              end
  end.
Definition ground_truth_heading (attr_lam : result lam_t) : filter -> filter := wrap Ok (fun l => l) (heading_post attr_lam).

(** *** LPF, base.py 163-202 *)
Definition series (yhat : arr3) (j : nat) : result (list quat) :=
  mapM (fun step => do r <- jax_get step (Z.of_nat j); quat_of_row r) yhat.
(** vmap over the link axis, in_axes=1, out_axes=1 *)
Definition lowpass_links (cutoff samp : R) (filtfilt : bool) (yhat : arr3) : result arr3 :=
  match yhat with
  | [] => Ok []
  | y0 :: _ =>
      do cols <- mapM (fun j => do s <- series yhat j; Ok (quat_lowpassfilter cutoff samp filtfilt s)) (seq 0 (length y0));
      mapM (fun t => mapM (fun col => do q <- jax_get col (Z.of_nat t); Ok (row_of_quat q)) cols) (seq 0 (length yhat))
  end.
(** 1 / X[0, 0, -1], F = 10 asserted *)
Definition detected_rate (x : arr3) : result R :=
  do x0 <- jax_get x 0; do r <- jax_get x0 0; do _ <- assert_ (length r =? 10)%nat; do dt <- jax_get r (-1); Ok (1 / dt).
Definition lpf_post (cutoff : R) (samp : option R) (filtfilt : bool) (x : arr3) (y : option arr3) (lam : lam_t) (yhat : arr3) : result arr3 :=
  do f <- match samp with Some f => Ok f | None => detected_rate x end;
  lowpass_links cutoff f filtfilt yhat.
Definition lpf (cutoff : R) (samp : option R) (filtfilt : bool) : filter -> filter := wrap Ok (fun l => l) (lpf_post cutoff samp filtfilt).

(** *** NoGraph, base.py 285-302 *)
Fixpoint chunks_fuel {A} (fuel k : nat) (l : list A) : list (list A) :=
  match fuel with
  | 0%nat => []
  | S n => match l with [] => [] | _ => firstn k l :: chunks_fuel n k (skipn k l) end
  end.
Definition chunks {A} (k : nat) (l : list A) : list (list A) := chunks_fuel (length l) k l.
(** reshape((..., N, -1)): the last dimension is inferred from the total size. *)
Definition infer (total known : nat) : result nat :=
  if (known =? 0)%nat then Err EValue else if (total mod known =? 0)%nat then Ok (total / known)%nat else Err EValue.
Definition flat3 (x : arr3) : row := concat (concat x).
Definition reshape3 (T N : nat) (flat : row) : result arr3 :=
  do k <- infer (length flat) (T * N); Ok (chunks N (chunks k flat)).
Definition reshape4 (B T N : nat) (flat : row) : result (list arr3) :=
  do k <- infer (length flat) (B * T * N); Ok (chunks T (chunks N (chunks k flat))).
Definition flatten_links (x : arr3) : arr3 := map (fun step => [concat step]) x.
(** maths.py 39-50 on a vector of any length *)
Definition row_norm2 (r : row) : R := fold_right Rplus 0 (map (fun v => v * v) r).
Definition normalize_row (r : row) : row :=
  if forallb (fun v => if close0_dec v then true else false) r then map (fun _ => 0) r else map (fun v => / sqrt (row_norm2 r) * v) r.
Definition quat_rows (normalize : bool) (x : arr3) : result arr3 :=
  if normalize then map_rows (fun r => do _ <- assert_ (length r =? 4)%nat; Ok (normalize_row r)) x else Ok x.
(** The number of links is read off the first time step of the array. *)
Definition nlinks (x : arr3) : nat := match x with step :: _ => length step | [] => 0%nat end.
Definition no_graph (normalize : bool) (f : filter) : filter :=
  mkFilter
    (fun X p s y lam =>
       do x0 <- jax_get X 0;
       do r <- f_batched f (map flatten_links X) p s y (Some [(-1)%Z]);
       do out <- reshape4 (length X) (length x0) (nlinks x0) (concat (map flat3 (fst r)));
       do out' <- mapM (quat_rows normalize) out;
       Ok (out', snd r))
    (fun x p s y lam =>
       do r <- f_unbatched f (flatten_links x) p s y (Some [(-1)%Z]);
       do out <- reshape3 (length x) (nlinks x) (flat3 (fst r));
       do out' <- quat_rows normalize out;
       Ok (out', snd r)).
End Filter.

(** ** ring.RING, __init__.py 100-114, and ring.ml.RNNO, ml/__init__.py 46-57 *)
Definition make_RING {P ST} (net : @filter P ST) (lam : lam_t) (Ts : option R) (use_lpf add_Ts : bool) (cutoff : R) : filter :=
  let f := scale_x default_factors net in
  let f := if use_lpf then lpf cutoff (match Ts with None => None | Some t => Some (1 / t) end) true f else f in
  let f := ground_truth_heading (Ok lam) f in
  if add_Ts then add_ts Ts f else f.
Definition make_RNNO {P ST} (net : @filter P ST) (return_quats eval scale_X : bool) (samp : option R) (cutoff : R) : filter :=
  let f := no_graph return_quats net in
  let f := if scale_X then scale_x default_factors f else f in
  let f := if eval && return_quats then lpf cutoff samp true f else f in
  if return_quats then ground_truth_heading (Ok None) f else f.

(** ** Names, saving and loading: base.py 49-75, 120-141; ringnet.py 282-297 *)
Inductive fobj (P : Type) :=
| FRing (params : option P) (lam : lam_t) (name : option string)
| FUser (name : option string)                 (* a subclass of AbstractFilter that keeps the default hooks *)
| FNone                                        (* Python's None *)
| FWrap (kind : nat) (inner : fobj P) (name : option string).
Arguments FRing {P}. Arguments FUser {P}. Arguments FNone {P}. Arguments FWrap {P}.
Definition own_name (n : option string) : result string := match n with Some s => Ok s | None => Err EOther end.
Fixpoint fname {P} (f : fobj P) : result string :=
  match f with
  | FRing _ _ n => own_name n
  | FUser n => own_name n
  | FNone => Err EOther
  | FWrap _ g n => do a <- fname g; do b <- own_name n; Ok (a ++ " ->" ++ String (Ascii.ascii_of_nat 10) EmptyString ++ b)%string
  end.
(** nojit of a wrapper changes the wrapper itself; RING.nojit builds a new RING without a name. *)
Fixpoint nojit {P} (f : fobj P) : fobj P :=
  match f with
  | FRing p l _ => FRing p l None
  | FWrap k g n => FWrap k (nojit g) n
  | g => g
  end.
(** save returns what is written and what the saved object is afterwards: a wrapper is changed in place. *)
Fixpoint pre_save {P} (params : option P) (lam : lam_t) (f : fobj P) : fobj P :=
  match f with
  | FRing p l n => FRing (match params with Some p => Some p | None => p end) (match lam with Some l => Some l | None => l end) n
  | FWrap k g n => FWrap k (pre_save params lam g) n
  | g => g
  end.
Definition save {P} (params : option P) (lam : lam_t) (f : fobj P) : fobj P * fobj P :=
  let f' := pre_save params lam f in
  (nojit f', match f' with FWrap _ _ _ => nojit f' | g => g end).
(** _post_load: the default implementation returns None. *)
Fixpoint post_load {P} (f : fobj P) : fobj P :=
  match f with
  | FRing p l n => FRing p l n
  | FUser _ => FNone
  | FNone => FNone
  | FWrap k g n => FWrap k (post_load g) n
  end.
