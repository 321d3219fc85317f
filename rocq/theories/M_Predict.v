(** * Model of render_prediction: src/ring/rendering/base_render.py 149-224 and 292-309.

    What is drawn afterwards (render of the composed system with the composed poses) is M_Render.v.  yhat is a mapping
    from link names to time series; the array form of yhat is turned into one first. *)
From Coq Require Import Reals String ZArith Bool List.
From Verif Require Import Prelude M_Sys M_Math M_Compose M_Target.
Import ListNotations.
Local Open Scope Z_scope.

Section Predict.
Context {K L G O : Type}.
Notation sys := (System K L G O).
Variable W : widths.
Variable ops : parse_ops K L G.
Variable pad : list L -> L -> L.
Variable recolor : G -> G.               (* g.replace(color=prediction_color) *)

(** base_render.py 297-300, _geoms_replace_color *)
Definition geoms_replace_color (transparent : bool) (s : sys) : result sys :=
  do gs <- mapM (fun g => do p <- (if transparent then py_get (link_parents s) (fst g) else Ok 0);
                          Ok (if negb transparent || negb (p =? -1) then [(fst g, recolor (snd g))] else [])) (geoms s);
  Ok (set_links_geoms s (links s) (concat gs)).

(** base_render.py 292-309, _sys_render *)
Definition sys_render (s : sys) (transparent : bool) : result sys :=
  do no <- make_sys_noimu W ops s None;
  do new <- geoms_replace_color transparent (fst no);
  inject_system W ops pad s (add_prefix_suffix new "hat_" "") None.

(** base_render.py 158-159: an array of predictions, one column per link of the system without IMUs. *)
Definition yhat_of_array (names : list string) (cols : list (list quat)) : list (string * list quat) := combine names cols.

(** base_render.py 187-189 *)
Definition add_offset (offset : vec3) (x : transform) : transform := t_mul x (Tr offset qone).

(** base_render.py 149-224, _render_prediction_internals.  The branch of line 179-180 (a link without prediction) is
    never taken, because the loop of lines 165-169 looks up every link. *)
Definition prediction_poses (s : sys) (xs : traj) (yhat : list (string * list quat)) (no : sys) : result traj :=
  do xs_noimu <- match_xs W no xs s;
  do rots <- mapM (fun np => do y <- dgetE String.eqb yhat (fst np);
                             Ok (if snd np =? -1 then y else map qinv y)) (combine (link_names no) (link_parents no));
  do t12 <- unzip_xs W no xs_noimu;
  do t2hat <- stack_links (map (map (Tr vzero)) rots);
  zip_xs W no (fst t12) t2hat.

Definition render_prediction_internals (s : sys) (xs : traj) (yhat : list (string * list quat)) (transparent : bool)
    (offset_truth offset_pred : vec3) : result (sys * traj) :=
  do no <- make_sys_noimu W ops s None;
  do xshat <- prediction_poses s xs yhat (fst no);
  let hat := map (fun ni => ("hat_" ++ snd ni, map (add_offset offset_pred) (link_traj xshat (fst ni)))%string)
                 (combine (seq 0 (num_links (fst no))) (link_names (fst no))) in
  let truth := map (fun ni => (snd ni, map (add_offset offset_truth) (link_traj xs (fst ni))))
                   (combine (seq 0 (num_links s)) (link_names s)) in
  let xs_dict := fold_left (fun d kv => dset String.eqb d (fst kv) (snd kv)) (hat ++ truth) [] in
  do sr <- sys_render s transparent;
  do cols <- mapM (dgetE String.eqb xs_dict) (link_names sr);
  do xr <- stack_links cols;
  Ok (sr, xr).
End Predict.
