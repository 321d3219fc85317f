(** * ring/algorithms/_random.py: random angle and position trajectories.
    Numbers are real numbers.  Random numbers come from a generator [rng] in the style of jax.random: keys are split,
    and a draw is a function of a key; what the draws are is left open.  Values that may be floats or functions of time
    are functions of time (14-17: [_to_float]).  Warnings are left out. *)
From Coq Require Import Reals Lra Lia ZArith Bool Ascii String List.
From Verif Require Import Prelude M_Math.
Import ListNotations.
Local Open Scope R_scope.

(** [r_split key n j] is the j-th of the n keys of jax.random.split(key, n); [r_unif key] a scalar and [r_units key n]
    an array of n uniform draws from the unit interval; [r_coin key] whether choice(key, [a, b]) gives b;
    [r_int key lo hi] is randint(key, (), lo, hi); [r_perm key l] is permutation(key, l). *)
Record rng (K : Type) : Type := mkRng {
  r_split : K -> nat -> nat -> K;
  r_unif : K -> R;
  r_units : K -> nat -> list R;
  r_coin : K -> bool;
  r_int : K -> nat -> nat -> nat;
  r_perm : K -> list nat -> list nat
}.
Arguments mkRng {K}. Arguments r_split {K}. Arguments r_unif {K}. Arguments r_units {K}.
Arguments r_coin {K}. Arguments r_int {K}. Arguments r_perm {K}.

(** jax.lax.while_loop with explicit fuel *)
Fixpoint while {A} (fuel : nat) (cond : A -> bool) (body : A -> A) (x : A) : result A :=
  if cond x then match fuel with 0%nat => Err EOutOfFuel | S k => while k cond body (body x) end else Ok x.

Definition rle (a b : R) : bool := if Rle_dec a b then true else false.
Definition rlt (a b : R) : bool := if Rlt_dec a b then true else false.
(** jax.random.uniform(key, minval, maxval), from the draw of the unit interval: jax scales, shifts and then takes the
    maximum with minval. *)
Definition scaled (u lo hi : R) : R := Rmax lo (u * (hi - lo) + lo).
(** a[i] with jax's indexing of an array by an integer: negative indices count from the end, then the index is clamped. *)
Definition at_ (l : list R) (i : Z) : R :=
  let n := Z.of_nat (length l) in
  nth (Z.to_nat (Z.max 0 (Z.min (n - 1) (if (i <? 0)%Z then i + n else i)%Z))) l 0.
(** jnp.searchsorted(xp, x, side="right") for a sorted array: the number of entries that are at most x *)
Definition searchsorted_right (xp : list R) (x : R) : nat := length (filter (fun y => rle y x) xp).
(** _random.py 351, 415: jnp.clip(., 1, len(xp) - 1) *)
Definition segment (xp : list R) (x : R) : Z :=
  Z.min (Z.max (Z.of_nat (searchsorted_right xp x)) 1) (Z.of_nat (length xp) - 1).

(** _random.py 355-357, 425-427 *)
Definition cos_interpolate (x1 x2 alpha : R) : R := (x1 + x2) / 2 + (x1 - x2) / 2 * cos (alpha * PI).
(** _random.py 350-361, for one query point.  Division by zero: the value is not used. *)
Definition cosInterpolate (xp fp : list R) (x : R) : R :=
  let i := segment xp x in
  let dx := at_ xp i - at_ xp (i - 1) in
  let alpha := (x - at_ xp (i - 1)) / dx in
  let f := if Req_EM_T dx 0 then at_ fp i else cos_interpolate (at_ fp (i - 1)) (at_ fp i) alpha in
  if rlt (at_ xp (-1)) x then at_ fp (-1) else f.

(** _random.py 364-368 *)
Definition biject_alpha (cdf : list R) (alpha : R) : R :=
  let cdf_dx := 1 / (INR (length cdf) - 1) in
  let left_idx := Int_part (alpha / cdf_dx) in
  let a := (alpha - IZR left_idx * cdf_dx) / cdf_dx in
  (1 - a) * at_ cdf left_idx + a * at_ cdf (left_idx + 1).

(** jnp.cumsum *)
Fixpoint cumsum_from (s : R) (l : list R) : list R := match l with [] => [] | x :: r => (s + x) :: cumsum_from (s + x) r end.
Definition cumsum : list R -> list R := cumsum_from 0.
Fixpoint cumsum_nat (s : nat) (l : list nat) : list nat := match l with [] => [] | x :: r => (s + x)%nat :: cumsum_nat (s + x)%nat r end.
Definition normalised (l : list R) : list R := map (fun y => y / at_ l (-1)) l.

Section Rng.
Context {K : Type}.
Variable g : rng K.
(** jax.random.uniform(key, minval=lo, maxval=hi) *)
Definition uniform (key : K) (lo hi : R) : R := scaled (r_unif g key) lo hi.
Definition uniforms (key : K) (n : nat) (lo hi : R) : list R := map (fun u => scaled u lo hi) (r_units g key n).

(** _random.py 371-404.  bins_max=None: 374-383; otherwise 385-402. *)
Definition generate_cdf (bins_min : nat) (bins_max : option nat) : result (K -> list R) :=
  match bins_max with
  | None => Ok (fun key => normalised (cumsum (0 :: uniforms key bins_min (1 / 10 ^ 6) 1)))
  | Some dy_max =>
      do _ <- assert_ (bins_min <=? dy_max)%nat;
      Ok (fun key =>
        let consume := r_split g key 2 1 in
        let key := r_split g key 2 0 in
        let cdf_bins := r_int g consume bins_min (dy_max + 1) in
        let mask := map (fun j => if (j <? cdf_bins)%nat then 1%nat else 0%nat) (seq 0 dy_max) in
        let consume := r_split g key 2 1 in
        let key := r_split g key 2 0 in
        let mask := r_perm g consume mask in
        let dy := uniforms key dy_max (1 / 10 ^ 6) 1 in
        let dy := map (fun c => at_ dy (Z.of_nat c - 1)) (cumsum_nat 0 mask) in
        normalised (cumsum (0 :: dy)))
  end.

(** _random.py 423-430 *)
Definition two_point_interp (method : string) : result (R -> R -> R -> R) :=
  if String.eqb method "cosine" then Ok cos_interpolate
  else if String.eqb method "linear" then Ok (fun x1 x2 alpha => (1 - alpha) * x1 + alpha * x2)
  else Err ENotImpl.
(** _random.py 407-439, for one query point.  cdfs of length one divide by zero (365). *)
Definition interpolate (bins_min : nat) (bins_max : option nat) (method : string) (xp fp : list R) (key : K)
  : result (R -> R) :=
  do gen <- generate_cdf bins_min bins_max;
  do _ <- (if (match bins_max with None => bins_min | Some m => m end =? 0)%nat then Err EZeroDiv else Ok tt);
  do two <- two_point_interp method;
  Ok (fun x =>
    let i := segment xp x in
    let dx := at_ xp i - at_ xp (i - 1) in
    let alpha := (x - at_ xp (i - 1)) / dx in
    let n := length xp in
    let row := Z.to_nat (if (i - 1 <? 0)%Z then i - 1 + Z.of_nat n else i - 1)%Z in
    let consume := r_split g key (n + 1) (S row) in
    let alpha := biject_alpha (gen consume) alpha in
    let f := if Req_EM_T dx 0 then at_ fp i else two (at_ fp (i - 1)) (at_ fp i) alpha in
    if rlt (at_ xp (-1)) x then at_ fp (-1) else f).

(** ** The next angle *)

(** _random.py 255-256: jnp.clip *)
Definition clip_to_pi (phi : R) : R := Rmin (Rmax phi (- PI)) PI.
(** s.split("-") *)
Fixpoint split_dash (cur s : string) : list string :=
  match s with
  | EmptyString => [cur]
  | String c r => if Ascii.eqb c "-"%char then cur :: split_dash "" r else split_dash (cur ++ String c "") r
  end%string.

Variable parse_float : string -> result R.      (* float(s) *)
(** _random.py 283-302: the probability of moving upwards *)
Definition prob_up (method : string) : result (R -> R) :=
  if String.eqb method "coinflip" then Ok (fun _ => 1 / 2)
  else if String.eqb method "uniform" then Ok (fun phi => 1 / 2 * (1 - phi / PI))
  else if String.eqb (substring 0 7 method) "sigmoid" then
    do scale <- match split_dash "" method with [_; p] => parse_float p | _ => Ok (3 / 2) end;
    let hardcut := PI - 1 / 100 in
    Ok (fun phi => if rlt hardcut phi then 0 else if rlt phi (- hardcut) then 1 else 1 / (1 + exp (- (- scale * phi))))
  else Err ENotImpl.
(** _random.py 304: choice of two values with probabilities p and 1 - p: the first value whose cumulated probability
    reaches one minus the draw. *)
Definition sign_of (u p : R) : R := if rle (1 - u) p then 1 else -1.

(** _random.py 280-319, with the probability of moving upwards given *)
Definition next_phi (rom : bool) (p rom_lower rom_upper dang_min dang_max prev : R) (key : K) (dt : R) : R :=
  let consume := r_split g key 2 1 in
  let key := r_split g key 2 0 in
  let sign := sign_of (r_unif g consume) p in
  let lower := prev + sign * dang_min * dt in
  let upper := prev + sign * dang_max * dt in
  let (lower, upper) := if rom then (clip_to_pi lower, clip_to_pi upper) else (lower, upper) in
  let (lower, upper) := (Rmin lower upper, Rmax lower upper) in
  let lower := Rmax lower rom_lower in
  let upper := Rmin upper rom_upper in
  let consume := r_split g key 2 1 in
  uniform consume lower upper.

(** Arguments of random_angle_over_time (21-44) that do not change *)
Record angle_args : Type := mkAng {
  a_dang_min : R -> R; a_dang_max : R -> R; a_delta_min : R -> R; a_delta_max : R -> R;
  a_t_min : R; a_t_max : R -> R; a_max_iter : nat;
  a_rom : bool; a_method : string; a_halfsize : R -> R
}.

(** _random.py 259-347.  State: (key_t, key_ang, dt, next_phi, i).  [p] is the probability of moving upwards from
    [prev]. *)
Definition rom_state : Type := K * K * R * R * nat.
Definition rom_body (a : angle_args) (p ANG_0 t prev : R) (v : rom_state) : rom_state :=
  let '(key_t, key_ang, _, _, i) := v in
  let h := a_halfsize a t in
  let dt := uniform (r_split g key_t 2 1) (a_t_min a) (a_t_max a t) in
  let phi := next_phi (a_rom a) p (ANG_0 - h) (ANG_0 + h) (a_dang_min a t) (a_dang_max a t) prev (r_split g key_ang 2 1) dt in
  (r_split g key_t 2 0, r_split g key_ang 2 0, dt, phi, S i).
(** _random.py 331-338: both conditions hold *)
Definition angle_ok (a : angle_args) (t prev dt phi : R) : bool :=
  let delta := Rabs (phi - prev) in
  rle (a_delta_min a t) delta && rle delta (a_delta_max a t) && (rle (a_dang_min a t) (delta / dt) && rle (delta / dt) (a_dang_max a t)).
Definition rom_cond (a : angle_args) (t prev : R) (v : rom_state) : bool :=
  let '(_, _, dt, phi, i) := v in
  (i =? 0)%nat || negb (angle_ok a t prev dt phi || (a_max_iter a <? i)%nat).
Definition resolve_range_of_motion (a : angle_args) (ANG_0 t prev : R) (key_t key_ang : K) : result (R * R) :=
  do prob <- prob_up (if a_rom a then a_method a else "coinflip"%string);
  do v <- while (S (S (a_max_iter a))) (rom_cond a t prev) (rom_body a (prob prev) ANG_0 t prev) (key_t, key_ang, 1, prev, 0%nat);
  let '(_, _, dt, phi, _) := v in Ok (dt, phi).

(** ** The tables of times and values *)

(** _random.py 85, 211: int(T // t_min) + 1; a table without rows cannot be written to. *)
Definition table_rows (T t_min : R) : result nat :=
  if Req_EM_T t_min 0 then Err EZeroDiv
  else let n := (Int_part (T / t_min) + 1)%Z in if (n <=? 0)%Z then Err EOther else Ok (Z.to_nat n).
(** jax.lax.dynamic_update_slice_in_dim of one row: the index is clamped *)
Definition put_row (i : nat) (row : R * R) (l : list (R * R)) : list (R * R) :=
  let j := Nat.min i (length l - 1) in firstn j l ++ row :: skipn (S j) l.
(** _random.py 86, 212 *)
Definition first_table (rows : nat) (v0 : R) : list (R * R) := put_row 0 (0, v0) (repeat (0, 0) rows).
(** _random.py 90-94, 216-220: rows from [fin] on repeat row [fin] - 1 *)
Definition pad_table (fin : nat) (l : list (R * R)) : list (R * R) :=
  map (fun jr => if (fst jr <? fin)%nat then snd jr else nth (Nat.min (fin - 1) (length l - 1)) l (0, 0)) (combine (seq 0 (length l)) l).
(** _random.py 97-100, 223-226; jnp.arange(T, step=Ts) has the multiples of Ts that are below T. *)
Definition query_times (N : option nat) (T Ts : R) : list R :=
  map (fun j => INR j * Ts) (seq 0 (match N with Some n => n | None => Z.to_nat (- Int_part (- (T / Ts))) end)).
(** jnp.floor(t / Ts) * Ts *)
Definition on_grid (Ts t : R) : R := IZR (Int_part (t / Ts)) * Ts.

(** How the table is read: 101-112, 227-241.  None: not randomised. *)
Definition read_table (rnd : option (nat * option nat * string)) (l : list (R * R)) (key : K) (ts : list R) : result (list R) :=
  match rnd with
  | Some (bins_min, bins_max, method) => do f <- interpolate bins_min bins_max method (map fst l) (map snd l) key; Ok (map f ts)
  | None => Ok (map (cosInterpolate (map fst l) (map snd l)) ts)
  end.

(** ** Angles: _random.py 21-117.  State: (i, t, phi, key_t, key_ang, ANG).  An exception of the body is an exception of
    the loop. *)
Definition ang_state : Type := nat * R * R * K * K * list (R * R).
Fixpoint ang_loop (fuel : nat) (a : angle_args) (ANG_0 T Ts : R) (v : ang_state) : result ang_state :=
  let '(i, t, phi, key_t, key_ang, tab) := v in
  if rle t T then
    match fuel with
    | 0%nat => Err EOutOfFuel
    | S k =>
        let consume_t := r_split g key_t 2 1 in
        let key_t := r_split g key_t 2 0 in
        let consume_ang := r_split g key_ang 2 1 in
        let key_ang := r_split g key_ang 2 0 in
        do r <- resolve_range_of_motion a ANG_0 t phi consume_t consume_ang;
        let (dt, phi) := r in
        let t := t + dt in
        ang_loop k a ANG_0 T Ts (S i, t, phi, key_t, key_ang, put_row i (on_grid Ts t, phi) tab)
    end
  else Ok v.
Definition angle_table (a : angle_args) (key_t key_ang : K) (ANG_0 T Ts : R) : result (K * list (R * R)) :=
  do rows <- table_rows T (a_t_min a);
  do v <- ang_loop (S rows) a ANG_0 T Ts (1%nat, 0, ANG_0, key_t, key_ang, first_table rows ANG_0);
  let '(fin, _, _, _, consume, tab) := v in
  Ok (consume, pad_table fin tab).
Definition random_angle_over_time (a : angle_args) (rnd : option (nat * option nat * string)) (key_t key_ang : K)
  (ANG_0 T Ts : R) (N : option nat) : result (list R) :=
  do kt <- angle_table a key_t key_ang ANG_0 T Ts;
  do q <- read_table rnd (snd kt) (fst kt) (query_times N T Ts);
  Ok (if a_rom a then q else map wrap_to_pi q).

(** ** Positions: _random.py 121-242 *)
Record pos_args : Type := mkPos {
  p_min : R -> R; p_max : R -> R; p_dmin : R -> R; p_dmax : R -> R;
  p_t_min : R; p_t_max : R -> R; p_max_it : nat
}.
(** _random.py 139-168.  State: (i, x, key); t, t_pre and x_pre do not change. *)
Definition try_state : Type := nat * R * K.
Definition try_body (a : pos_args) (t t_pre x_pre : R) (v : try_state) : try_state :=
  let '(i, x, key) := v in
  let dt := t - t_pre in
  let '(key, dx) :=
    if (p_max_it a <? i)%nat then (key, 0)
    else
      let sign := if r_coin g (r_split g key 3 1) then 1 else -1 in
      (r_split g key 3 0, sign * uniform (r_split g key 3 2) (p_dmin a t_pre) (p_dmax a t_pre) * dt) in
  (S i, x_pre + dx, key).
(** _random.py 171-185 *)
Definition pos_ok (a : pos_args) (t t_pre x_pre x : R) : bool :=
  let dpos := Rabs ((x - x_pre) / (t - t_pre)) in
  rlt dpos (p_dmax a t_pre) && rlt (p_dmin a t_pre) dpos && rle (p_min a t_pre) x && rle x (p_max a t_pre).
Definition try_cond (a : pos_args) (t t_pre x_pre : R) (v : try_state) : bool :=
  let '(i, x, _) := v in negb (pos_ok a t t_pre x_pre x || (p_max_it a <? i)%nat).
(** _random.py 187-203.  t_pre = t and x_pre = x between the steps. *)
Definition pos_state : Type := nat * R * R * K * list (R * R).
Fixpoint pos_loop (fuel : nat) (a : pos_args) (T Ts : R) (v : pos_state) : result pos_state :=
  let '(i, t_pre, x_pre, key, tab) := v in
  if rle t_pre T then
    match fuel with
    | 0%nat => Err EOutOfFuel
    | S k =>
        let consume := r_split g key 2 1 in
        let key := r_split g key 2 0 in
        let t := t_pre + uniform consume (p_t_min a) (p_t_max a t_pre) in
        do w <- while (S (S (p_max_it a))) (try_cond a t t_pre x_pre) (try_body a t t_pre x_pre) (0%nat, x_pre, key);
        let '(_, x, key) := w in
        pos_loop k a T Ts (S i, t, x, key, put_row i (on_grid Ts t, x) tab)
    end
  else Ok v.
Definition position_table (a : pos_args) (key : K) (POS_0 T Ts : R) : result (K * list (R * R)) :=
  do rows <- table_rows T (p_t_min a);
  do v <- pos_loop (S rows) a T Ts (1%nat, 0, POS_0, key, first_table rows POS_0);
  let '(fin, _, _, consume, tab) := v in
  Ok (consume, pad_table fin tab).
Definition random_position_over_time (a : pos_args) (rnd : option (nat * option nat * string)) (key : K)
  (POS_0 T Ts : R) (N : option nat) : result (list R) :=
  do kt <- position_table a key POS_0 T Ts;
  read_table rnd (snd kt) (fst kt) (query_times N T Ts).
End Rng.
