(** * ring/algorithms/custom_joints/suntay.py over the real numbers.

    [None] stands for a result that is not a finite number (division by zero gives NaN or an infinity). *)
From Coq Require Import Reals Lra String List.
From Verif Require Import Prelude M_Math.
Import ListNotations.
Local Open Scope R_scope.

Definition rdiv (a b : R) : option R := if Req_EM_T b 0 then None else Some (a / b).
Definition omap (f : R -> R) (x : option R) : option R := match x with Some y => Some (f y) | None => None end.

(** jnp.min / jnp.max of a non-empty array *)
Definition lmin (y : R) (ys : list R) : R := fold_left Rmin ys y.
Definition lmax (y : R) (ys : list R) : R := fold_left Rmax ys y.

(** suntay.py 484-485 *)
Definition shift (mn mx y : R) : option R := rdiv (y - mn) (mx - mn).
(** suntay.py 488-489 *)
Definition shift_inv (mn mx y : R) : R := y * (mx - mn) + mn.

(** suntay.py 492-501.  jnp.min of an empty array raises. *)
Definition normalize (ys : list R) (amin amax : option R) : result (list (option R)) :=
  match ys with
  | [] => Err EValue
  | y :: r =>
      let mn := match amin with None => lmin y r | Some a => Rmin a (lmin y r) end in
      let mx := match amax with None => lmax y r | Some a => Rmax a (lmax y r) end in
      Ok (map (shift mn mx) ys)
  end.

(** suntay.py 504-507 *)
Definition smoothstep (t : R) : R :=
  if Rlt_dec t 0 then 0 else if Rle_dec t 1 then 3 * t ^ 2 - 2 * t ^ 3 else 1.
Definition smoothclamp (mi mx x : R) : option R :=
  omap (fun t => mi + (mx - mi) * smoothstep t) (rdiv (x - mi) (mx - mi)).
(** suntay.py 510-513 *)
Definition sigmoidclamp (mi mx x : R) : option R :=
  omap (fun t => mi + (mx - mi) * / (1 + Rpower 200 (- t + 1 / 2))) (rdiv (x - mi) (mx - mi)).
(** jax.nn.sigmoid *)
Definition sigmoid (x : R) : R := / (1 + exp (- x)).

(** suntay.py 516-546; [stepness] is method_kwargs.get("stepness", 3.0). *)
Definition restrict (ys : list R) (mn mx : R) (amin amax : option R) (method : string) (stepness : R)
  : result (list (option R)) :=
  if String.eqb method "minmax" then
    do l <- normalize ys amin amax; Ok (map (omap (shift_inv mn mx)) l)
  else if String.eqb method "clip" then Ok (map (fun y => Some (clip y mn mx)) ys)
  else if String.eqb method "smoothclamp" then Ok (map (smoothclamp mn mx) ys)
  else if String.eqb method "sigmoidclamp" then Ok (map (sigmoidclamp mn mx) ys)
  else if String.eqb method "sigmoid" then
    do l <- normalize ys amin amax;
    Ok (map (omap (fun y => shift_inv mn mx (sigmoid (shift_inv (- stepness) stepness y)))) l)
  else Err ENotImpl.

(** suntay.py 266-274 *)
Definition apply_rom (mn mx : R) (method : string) (qs : list R) : result (list (option R)) :=
  restrict qs mn mx (Some (- PI)) (Some PI) method 3.
(** suntay.py 276-278 *)
Definition coordinate_vector_to_q_suntay (mn mx : R) (method : string) (q : R) : result (list (option R)) :=
  apply_rom mn mx method [wrap_to_pi q].

(** ** The functions of the flexion angle *)

(** jnp.interp for increasing xp: linear between neighbouring points, constant outside. *)
Fixpoint interp_from (x0 y0 : R) (pts : list (R * R)) (x : R) : R :=
  match pts with
  | [] => y0
  | (x1, y1) :: r => if Rle_dec x x0 then y0
                     else if Rle_dec x x1 then y0 + (x - x0) / (x1 - x0) * (y1 - y0)
                     else interp_from x1 y1 r x
  end.
Definition interp (pts : list (R * R)) (x : R) : option R :=
  match pts with [] => None | (x0, y0) :: r => Some (interp_from x0 y0 r x) end.

(** jnp.linspace *)
Definition linspace (a b : R) (n : nat) : list R :=
  map (fun i => a + (b - a) * INR i / INR (n - 1)) (seq 0 n).

(** suntay.py 453-458 with ys=None: [draw] is the sample of the Gaussian process at the points. *)
Definition gp_init (mn mx large : R) (draw : list R) : result (list (option R)) :=
  restrict draw mn mx (Some (- large)) (Some large) "minmax" 3.

(** suntay.py 335-336: poly_factors @ q ** powers *)
Definition poly (powers : list nat) (factors : list R) (q : R) : R :=
  fold_right Rplus 0 (map (fun cp => fst cp * q ^ snd cp) (combine factors powers)).
(** suntay.py 325-327; [order] as given by the user. *)
Definition poly_powers (order : nat) (include_bias : bool) : list nat :=
  if include_bias then seq 0 (S order) else seq 1 order.
(** suntay.py 341-346 *)
Definition poly_method (order : nat) : string := if Nat.eqb order 0 then "clip" else "minmax".

Record poly_params := mkPoly { pp_amin : R; pp_amax : R; pp_factors : list R; pp_q0 : R }.
(** suntay.py 348-365.  [factors], [q0], [scale] are the random draws; [scale] is None without
    enable_scale_delta. *)
Definition poly_init (order : nat) (bias : bool) (xs : list R) (factors : list R) (q0 : R) (scale : option R) : result poly_params :=
  match map (fun x => poly (poly_powers order bias) factors (x - q0)) xs with
  | [] => Err EValue
  | v :: r =>
      let amin := lmin v r in
      let amax := lmax v r + / 10 ^ 6 in
      Ok (mkPoly amin (match scale with None => amax | Some s => amin + (amax - amin) * s end) factors q0)
  end.
(** suntay.py 298-306: [normal] and [uniform] are the draws of the two methods. *)
Definition scale_delta (method : string) (normal uniform : R) : result R :=
  if String.eqb method "normal" then Ok (Rmax (normal + 1 / 2) 1)
  else if String.eqb method "uniform" then Ok (1 / (uniform + / 100))
  else Err ENotImpl.
(** suntay.py 367-371 *)
Definition poly_apply (order : nat) (bias : bool) (mn mx : R) (p : poly_params) (q : R) : result (list (option R)) :=
  restrict [poly (poly_powers order bias) (pp_factors p) (q - pp_q0 p)] mn mx (Some (pp_amin p)) (Some (pp_amax p)) (poly_method order) 3.
(** The value of a one-element result. *)
Definition the (r : result (list (option R))) : option R :=
  match r with Ok [Some v] => Some v | _ => None end.
(** suntay.py 373-376 *)
Definition poly_apply_centered (order : nat) (bias : bool) (mn mx center : R) (p : poly_params) (q : R) : option R :=
  match the (poly_apply order bias mn mx p q), the (poly_apply order bias mn mx p center) with
  | Some a, Some b => Some (a - b)
  | _, _ => None
  end.
(** suntay.py 329-339: the factory remembers the centre of the first call ([nonlocal]). *)
Definition factory_center (remembered : option R) (xs : list R) : result R :=
  match xs with
  | [] => Err EValue
  | x :: r => Ok (match remembered with None => (lmin x r + lmax x r) / 2 | Some c => c end)
  end.
(** suntay.py 386-399 *)
Definition constant_apply (value q : R) : R := value.
(** suntay.py 436-438: [net] is the output of the network. *)
Definition mlp_apply (mn mx net : R) : R := shift_inv mn mx (sigmoid net).
(** suntay.py 440-443 *)
Definition mlp_apply_centered (mn mx net net_center : R) : R := mlp_apply mn mx net - mlp_apply mn mx net_center.

(** ** The transform *)

(** suntay.py 112-129 *)
Definition suntay_RT (alpha beta gamma : R) : mat3 :=
  let sa := sin alpha in let sb := sin beta in let sg := sin gamma in
  let ca := cos alpha in let cb := cos beta in let cg := cos gamma in
  mtrans (M3 (V3 (cg * sb) (sg * sb) cb)
             (V3 (- ca * sg - cg * sa * cb) (ca * cg - sg * sa * cb) (sb * sa))
             (V3 (sa * sg - cg * ca * cb) (- cg * sa - ca * cb * sg) (ca * sb))).
(** suntay.py 131-142 *)
Definition suntay_H (alpha beta : R) (S : vec3) : vec3 :=
  let sa := sin alpha in let sb := sin beta in let ca := cos alpha in let cb := cos beta in
  mvmul (M3 (V3 1 0 cb) (V3 0 ca (sa * sb)) (V3 0 (- sa) (ca * sb))) S.
(** suntay.py 144-161: [f_S], [f_abd], [f_ext] are the drawn functions applied to the flexion angle. *)
Definition suntay_angles (f_S1 f_S2 f_S3 f_abd f_ext : R -> R) (q : R) : R * R * R * vec3 :=
  (q, PI / 2 + - f_abd q, f_ext q, V3 (f_S1 q) (f_S2 q) (f_S3 q)).
(** suntay.py 205-214 *)
Definition suntay_transform (f_S1 f_S2 f_S3 f_abd f_ext : R -> R) (q : R) : transform :=
  match suntay_angles f_S1 f_S2 f_S3 f_abd f_ext q with
  | (alpha, beta, gamma, trans) => Tr (suntay_H alpha beta trans) (quat_from_3x3 (suntay_RT alpha beta gamma))
  end.
(** suntay.py 198 *)
Definition suntay_Q (beta : R) (S : vec3) : vec3 :=
  V3 (vx S + vz S * cos beta) (vy S) (- vz S - vx S * cos beta).

(** suntay.py 163-178 *)
Fixpoint find_suntay (name : string) (found : option string) (links : list (string * string)) : result string :=
  match links with
  | [] => match found with None => Err EOther | Some n => Ok n end
  | (link_name, link_type) :: r =>
      if String.eqb link_type name then
        match found with Some _ => Err EOther | None => find_suntay name (Some link_name) r end
      else find_suntay name found r
  end.
Definition find_suntay_joint (name : string) (link_names link_types : list string) : result string :=
  find_suntay name None (combine link_names link_types).
