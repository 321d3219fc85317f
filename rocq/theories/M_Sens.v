(** * Model of src/ring/algorithms/sensors.py over the reals.

    A trajectory is a list with one element per time step; batched jnp operations act element by element.
    Random draws are explicit arguments. *)
From Coq Require Import Reals String ZArith Bool List.
From Verif Require Import Prelude M_Sys M_Math M_Geom M_Joint.
Import ListNotations.
Local Open Scope R_scope.

Definition zipwith {A B C} (f : A -> B -> C) (a : list A) (b : list B) : list C :=
  map (fun p => f (fst p) (snd p)) (combine a b).
(** Elementwise operation along the first axis with jnp broadcasting: equal lengths, or one of length one. *)
Definition bcast2 {A B C} (f : A -> B -> C) (a : list A) (b : list B) : result (list C) :=
  if (length a =? length b)%nat then Ok (zipwith f a b)
  else match a, b with
       | [x], _ => Ok (map (f x) b)
       | _, [y] => Ok (map (fun x => f x y) a)
       | _, _ => Err EValue
       end.
(** l[:-k], l[k:-k], l[-k:]; note that -0 is 0. *)
Definition upto_neg {A} (k : nat) (l : list A) : list A := if (k =? 0)%nat then [] else firstn (length l - k) l.
Definition inner {A} (k : nat) (l : list A) : list A := skipn k (upto_neg k l).
Definition last_n {A} (k : nat) (l : list A) : list A := if (k =? 0)%nat then l else skipn (length l - k) l.

(** sensors.py 15-29 *)
Definition accelerometer (xs : list transform) (gravity : vec3) (dt : R) (n : nat) : result (list vec3) :=
  let pos := map t_pos xs in
  do s <- bcast2 vadd (upto_neg (2 * n) pos) (skipn (2 * n) pos);
  do d <- bcast2 (fun a b => vsub a (vscale 2 b)) s (inner n pos);
  let acc := map (fun v => vadd (vscale (/ ((INR n * dt) ^ 2)) v) gravity) d in
  bcast2 rotate (firstn n acc ++ acc ++ last_n n acc) (map t_rot xs).

(** sensors.py 46-60: the rate from the rotation between two samples *)
Definition gyro_reading (dt : R) (dq : quat) : vec3 :=
  let '(axis, angle) := quat_to_rot_axis dq in
  if Rlt_dec (/ 10 ^ 10) (Rabs angle) then vscale (/ dt) (vscale angle axis) else vzero.
(** sensors.py 32-60.  With too few samples there is no first or last difference to repeat. *)
Definition gyroscope (q : list quat) (dt : R) (second_order : bool) : result (list vec3) :=
  let k := if second_order then 2%nat else 1%nat in
  let dq := zipwith (fun a b => qmul a (qinv b)) (skipn k q) (upto_neg k q) in
  match dq with
  | [] => Err EIndex
  | d0 :: _ =>
      let l := last dq d0 in
      if second_order then Ok (map (gyro_reading (2 * dt)) (d0 :: dq ++ [l]))
      else Ok (map (gyro_reading dt) (dq ++ [l]))
  end.

(** sensors.py 80-81 *)
Definition magnetometer (rot : list quat) (magvec : vec3) : list vec3 := map (rotate magvec) rot.

(** sensors.py 480-494.  jnp.roll(arr, i)[j] = arr[(j - i) mod len]. *)
Definition roll {A} (i : Z) (l : list A) (d : A) : list A :=
  map (fun j => nth (Z.to_nat ((Z.of_nat j - i) mod Z.of_nat (length l))) l d) (seq 0 (length l)).
Definition moving_average (arr : list vec3) (window : nat) : result (list vec3) :=
  do _ <- assert_ (window mod 2 =? 1)%nat;
  do _ <- assert_ (1 <? window)%nat;
  match arr with
  | [] => Err EIndex
  | a0 :: _ =>
      let hw := ((window - 1) / 2)%nat in
      let padded := repeat a0 hw ++ arr ++ repeat (last arr a0) hw in
      let sum := fold_left (fun acc i => zipwith vadd acc (roll (Z.of_nat i - Z.of_nat hw) padded vzero))
                   (seq 0 (2 * hw + 1)) (map (fun _ => vzero) padded) in
      Ok (firstn (length arr) (skipn hw (map (vscale (/ INR window)) sum)))
  end.

(** sensors.py 523-548 *)
Definition qp_damp : R := 35.
Definition qp_stif : R := 625.
Definition qp_step (dt : R) (st : vec3 * vec3) (zp : vec3 * vec3) : vec3 * vec3 :=
  let '(pos, vel) := st in
  let acc := vadd (vscale qp_damp (vsub (snd zp) vel)) (vscale qp_stif (vsub (fst zp) pos)) in
  let vel := vadd vel (vscale dt acc) in
  (vadd pos (vscale dt vel), vel).
(** jax.lax.scan collecting the positions *)
Fixpoint qp_scan (dt : R) (st : vec3 * vec3) (zps : list (vec3 * vec3)) : list vec3 :=
  match zps with
  | [] => []
  | zp :: r => let st' := qp_step dt st zp in fst st' :: qp_scan dt st' r
  end.
(** jnp.diff(xs.pos) / dt *)
Fixpoint diffs (dt : R) (ps : list vec3) : list vec3 :=
  match ps with
  | a :: ((b :: _) as r) => vscale (/ dt) (vsub b a) :: diffs dt r
  | _ => []
  end.
Definition quasi_physical (ps : list vec3) (dt : R) : result (list vec3) :=
  match ps with
  | [] => Err EIndex
  | p0 :: _ => Ok (qp_scan dt (p0, vzero) (combine ps (vzero :: diffs dt ps)))
  end.

(** sensors.py 551-591; with fewer than three samples the backward pass indexes an empty array and raises IndexError; the carry is (x_im1, x_im2, y_im1, y_im2) *)
Record bw := mkBw { bw_b0 : R; bw_b1 : R; bw_b2 : R; bw_a1 : R; bw_a2 : R }.
Definition bw_coeffs (f_sampling f_cutoff : R) : bw :=
  let ita := 1 / tan (PI * (f_cutoff / f_sampling)) in
  let q := sqrt 2 in
  let b0 := 1 / (1 + q * ita + ita ^ 2) in
  mkBw b0 (2 * b0) b0 (2 * (ita ^ 2 - 1) * b0) (- (1 - q * ita + ita ^ 2) * b0).
Fixpoint bw_scan (c : bw) (x1 x2 y1 y2 : vec3) (xs : list vec3) : list vec3 :=
  match xs with
  | [] => []
  | x :: r =>
      let y := vadd (vadd (vadd (vadd (vscale (bw_b0 c) x) (vscale (bw_b1 c) x1)) (vscale (bw_b2 c) x2))
                 (vscale (bw_a1 c) y1)) (vscale (bw_a2 c) y2) in
      y :: bw_scan c x x1 y y1 r
  end.
Definition bw_forward (c : bw) (xs : list vec3) : result (list vec3) :=
  match xs with
  | x0 :: x1 :: r =>
      let s := bw_scan c x1 x0 x1 x0 r in
      Ok (firstn 1 s ++ firstn 1 s ++ s)
  | _ => Err EIndex
  end.
Definition butterworth (xs : list vec3) (f_sampling f_cutoff : R) : result (list vec3) :=
  let c := bw_coeffs f_sampling f_cutoff in
  do f <- bw_forward c xs;
  do b <- bw_forward c (rev f);
  Ok (rev b).

(** sensors.py 254-257: jnp.pad(arr, ((delay, 0), (0, 0)))[:-delay] for delay > 0 *)
Definition delay_by (delay : nat) (arr : list vec3) : list vec3 :=
  if (0 <? delay)%nat then upto_neg delay (repeat vzero delay ++ arr) else arr.

(** sensors.py 136-179 for one sensor: the draws [noise] (one row per sample) and [bias] are given; None: no level. *)
Definition add_noise_bias (noise : option (list vec3)) (bias : option vec3) (arr : list vec3) : result (list vec3) :=
  do a <- match noise with Some ns => bcast2 vadd arr ns | None => Ok arr end;
  Ok (match bias with Some b => map (fun v => vadd v b) a | None => a end).

(** sensors.py 182-271.  [s2s] is the drawn sensor rotation; [magvec] the given or drawn field; [noise] the draws of
    add_noise_bias for acc, gyr and mag.  The result lists acc, gyr and, with a magnetometer, mag. *)
Record imu_opts := mkImu {
  o_s2s : option quat; o_quasi : bool; o_pos_cutoff : option R; o_rot_cutoff : option R;
  o_mag : option vec3; o_second : bool; o_acc_n : nat;
  o_smooth : option nat; o_delay : option nat;
  o_noise : option (string -> list vec3 * vec3); o_natural : bool }.
Definition rescale_natural (name : string) (arr : list vec3) : list vec3 :=
  if String.eqb name "gyr" then map (vscale (/ PI)) arr
  else if String.eqb name "acc" then map (vscale (/ (981 / 100))) arr else arr.
Definition imu (o : imu_opts) (xs : list transform) (gravity : vec3) (dt : R) : result (list (string * list vec3)) :=
  let xs := match o_s2s o with Some r => map (t_mul (Tr vzero r)) xs | None => xs end in
  do pos <- (if o_quasi o then quasi_physical (map t_pos xs) dt else Ok (map t_pos xs));
  do pos <- match o_pos_cutoff o with Some f => butterworth pos (1 / dt) f | None => Ok pos end;
  let rot := match o_rot_cutoff o with Some f => quat_lowpassfilter f (1 / dt) false (map t_rot xs) | None => map t_rot xs end in
  do acc <- accelerometer (zipwith Tr pos rot) gravity dt (o_acc_n o);
  do gyr <- gyroscope rot dt (o_second o);
  let ms := [("acc"%string, acc); ("gyr"%string, gyr)] ++
            match o_mag o with Some m => [("mag"%string, magnetometer rot m)] | None => [] end in
  do ms <- match o_smooth o with
           | Some w => mapM (fun m => do a <- moving_average (snd m) w; Ok (fst m, a)) ms
           | None => Ok ms
           end;
  let delay := match o_delay o, o_smooth o with
               | Some d, _ => d
               | None, Some w => ((w - 1) / 2)%nat
               | None, None => 0%nat
               end in
  let ms := map (fun m => (fst m, delay_by delay (snd m))) ms in
  do ms <- match o_noise o with
           | Some draw => mapM (fun m => do a <- add_noise_bias (Some (fst (draw (fst m)))) (Some (snd (draw (fst m)))) (snd m); Ok (fst m, a)) ms
           | None => Ok ms
           end;
  Ok (if o_natural o then map (fun m => (fst m, rescale_natural (fst m) (snd m))) ms else ms).
