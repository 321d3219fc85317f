(** * Model of saving and loading systems as XML (src/ring/io/xml/{to_xml,from_xml,abstract}.py).

    Simplifications, all stated here:
    - the text of the file is represented by the element tree it denotes: [tostring], [toprettyxml] and
      [ElementTree.fromstring] are inverse to each other on it (escaping and indentation are Python's);
    - attributes are strings as in the file; how a float is printed ([print]: str(x)), how an int is printed
      ([print_int]) and which texts Python's float() accepts ([float_of]) are parameters;
    - attribute values of an unexpected shape (e.g. pos="1 2") give [EValue] here where Python would build a
      system with ill-shaped arrays; a numeric model name or omc name gives [EType] here where Python keeps an array. *)
From Coq Require Import Reals ZArith String Ascii Bool List.
From Verif Require Import Prelude M_Sys M_Math M_Geom M_Joint.
Import ListNotations.
Local Open Scope string_scope.
Local Open Scope list_scope.

(** xml.etree.ElementTree.Element: tag, attrib, children. *)
Inductive xml (A : Type) := Elem (tag : string) (attrs : list (string * A)) (kids : list (xml A)).
Arguments Elem {A}.
Definition x_tag {A} (e : xml A) : string := match e with Elem t _ _ => t end.
Definition x_attrs {A} (e : xml A) : list (string * A) := match e with Elem _ a _ => a end.
Definition x_kids {A} (e : xml A) : list (xml A) := match e with Elem _ _ k => k end.
(** Element.findall(tag): direct children only. *)
Definition findall {A} (t : string) (ks : list (xml A)) : list (xml A) := filter (fun e => String.eqb (x_tag e) t) ks.

(** ** Geometries with their colours (base.py 234-241) and optical markers (base.py 363-366) *)
Inductive color := ColText (s : string) | ColNums (l : list R).
Record xgeom := mkXG { xg_geom : geometry; xg_color : option color; xg_edge : option color }.
Record omc_link := mkOmc { o_name : string; o_marker : Z; o_pos : vec3 }.
Definition xml_ops {J} : parse_ops R (plink J) xgeom :=
  mkOps 0%R 1%R (unit_quat_ok (@phys_ops J)) (pos_ok (@phys_ops J))
    (fun gs l => with_inertia (@phys_ops J) (map xg_geom gs) l).
Notation xsys J := (System R (plink J) xgeom (option omc_link)).

(** np.array_equal, abstract.py 272-273 *)
Definition leqb (a b : list R) : bool := if list_eq_dec Req_EM_T a b then true else false.

Section Xml.
Context {J : Type}.
Variable W : widths.
Variable print : R -> string.
Variable print_int : Z -> string.
Variable float_of : string -> option R.
(** jcalc._init_joint_params for the given seed (jcalc.py 1138-1158): one parameter value per link. *)
Variable jinit : list string -> result (list J).

(** abstract.py 291-301 *)
Definition to_str (l : list R) : string := String.concat " " (map print l).

(** abstract.py 12-32 *)
Definition default_pos : list R := [0; 0; 0]%R.
Definition default_quat : list R := [1; 0; 0; 0]%R.
Definition default_zeropoint (qn : nat) (typ : string) : list R :=
  let z := repeat 0%R qn in
  if is_free_or_cor_or_spherical typ then match z with [] => [] | _ :: r => 1%R :: r end else z.

(** ** Saving *)

(** abstract.py 92-97 *)
Definition trans_attrs (t : transform) : list (string * string) :=
  (if leqb (v3_list (t_pos t)) default_pos then [] else [("pos", to_str (v3_list (t_pos t)))])
  ++ (if leqb (q4_list (t_rot t)) default_quat then [] else [("quat", to_str (q4_list (t_rot t)))]).
(** abstract.py 121-127 *)
Definition minmax_attrs (pmin pmax : vec3) : list (string * string) :=
  if leqb (v3_list pmin) (v3_list pmax) then []
  else [("pos_min", to_str (v3_list pmin)); ("pos_max", to_str (v3_list pmax))].
(** abstract.py 48-66 *)
Definition arr_attr (key : string) (arr dflt : list R) : list (string * string) :=
  if leqb arr dflt then [] else [(key, to_str arr)].
Definition dasz_attrs (d a st z : list R) (qn dn : nat) (typ : string) : list (string * string) :=
  arr_attr "damping" d (repeat 0%R dn) ++ arr_attr "armature" a (repeat 0%R dn)
  ++ arr_attr "spring_stiff" st (repeat 0%R dn) ++ arr_attr "spring_zero" z (default_zeropoint qn typ).
(** abstract.py 77-82 *)
Definition omc_elem (o : omc_link) : xml string :=
  Elem "omc" ((if leqb (v3_list (o_pos o)) default_pos then [] else [("pos", to_str (v3_list (o_pos o)))])
              ++ [("name", o_name o); ("pos_marker", print_int (o_marker o))]) [].
(** abstract.py 151-163; a colour is written as it is, a tuple of floats as numbers (291-301). *)
Definition color_str (c : color) : string := match c with ColText s => s | ColNums l => to_str l end.
Definition opt_attr (key : string) (c : option color) : list (string * string) :=
  match c with None => [] | Some c => [(key, color_str c)] end.
Definition common_attrs (g : xgeom) (typ : string) : list (string * string) :=
  trans_attrs (g_transform (xg_geom g)) ++ [("mass", print (g_mass (xg_geom g)))]
  ++ opt_attr "color" (xg_color g) ++ opt_attr "edge_color" (xg_edge g) ++ [("type", typ)].
(** abstract.py 177-181, 195-199, 213-217, 231-235, 252-257 *)
Definition geom_elem (g : xgeom) : xml string :=
  Elem "geom" (match g_shape (xg_geom g) with
               | Box x y z => common_attrs g "box" ++ [("dim", to_str [x; y; z])]
               | Sphere r => common_attrs g "sphere" ++ [("dim", to_str [r])]
               | Cylinder r l => common_attrs g "cylinder" ++ [("dim", to_str [r; l])]
               | Capsule r l => common_attrs g "capsule" ++ [("dim", to_str [r; l])]
               | XYZ size => [("type", "xyz")] ++ (if leqb [size] [1%R] then [] else [("dim", print size)])
               end) [].

(** System.idx_map, base.py 449-458 (for "q" or "d"): a dict from link names to slices. *)
Definition idx_dict (w : string -> option nat) (s : xsys J) : result (list (string * slice)) :=
  do _ <- assert_ (length (link_names s) =? num_links s)%nat;
  do sls <- idx_slices w s;
  Ok (fold_left (fun d ns => dset String.eqb d (fst ns) (snd ns)) (combine (link_names s) sls) []).

(** list[i] for a non-negative index *)
Definition get_nat {A} (l : list A) (i : nat) : result A :=
  match nth_error l i with Some a => Ok a | None => Err EIndex end.

(** to_xml.py 39-80: the element of link [i]; recursion over the child links is fuelled. *)
Fixpoint link_elem (s : xsys J) (mq md : list (string * slice)) (fuel : nat) (i : nat) : result (xml string) :=
  match fuel with
  | 0%nat => Err EOutOfFuel
  | S k =>
      do l <- get_nat (links s) i;
      do typ <- get_nat (link_types s) i;
      do name <- get_nat (link_names s) i;
      do sd <- dgetE String.eqb md name;
      do sq <- dgetE String.eqb mq name;
      do qn <- wget (qW W) typ;
      do dn <- wget (dW W) typ;
      do o <- get_nat (omc s) i;
      do kids <- mapM (link_elem s mq md k)
                      (map fst (filter (fun ip => snd ip =? Z.of_nat i)%Z (enum (link_parents s))));
      Ok (Elem "body"
            ([("joint", typ); ("name", name)] ++ trans_attrs (pl_t1 l) ++ minmax_attrs (pl_pmin l) (pl_pmax l)
             ++ dasz_attrs (take_slice (link_damping s) sd) (take_slice (link_armature s) sd)
                  (take_slice (link_spring_stiffness s) sd) (take_slice (link_spring_zeropoint s) sq) qn dn typ)
            (map geom_elem (geoms_of_link (geoms s) (Z.of_nat i))
             ++ match o with None => [] | Some o => [omc_elem o] end ++ kids))
  end.

(** to_xml.py 15-88.  Serialising an attribute whose value is None raises TypeError (line 87). *)
Definition save (s : xsys J) : result (xml string) :=
  do mq <- idx_dict (qW W) s;
  do md <- idx_dict (dW W) s;
  do bodies <- mapM (link_elem s mq md (S (num_links s)))
                    (map fst (filter (fun ip => snd ip =? -1)%Z (enum (link_parents s))));
  match model_name s with
  | None => Err EType
  | Some m => Ok (Elem "x_xy" [("model", m)]
                    [Elem "options" [("dt", print (sys_dt s)); ("gravity", to_str (gravity s))] [];
                     Elem "worldbody" [] bodies])
  end.

(** ** Loading *)

(** from_xml.py 41-66 *)
Definition valid_attrs (tag : string) : option (list string) :=
  dget String.eqb
    [("x_xy", ["model"]); ("options", ["gravity"; "dt"]); ("defaults", ["geom"; "body"]); ("worldbody", []);
     ("body", ["name"; "pos"; "pos_min"; "pos_max"; "quat"; "euler"; "joint"; "armature"; "damping"; "spring_stiff"; "spring_zero"]);
     ("geom", ["type"; "mass"; "pos"; "dim"; "quat"; "euler"; "color"; "edge_color"]);
     ("omc", ["name"; "pos_marker"; "pos"])] tag.
Fixpoint all_valid {A} (e : xml A) : bool :=
  match e with
  | Elem t attrs kids =>
      match valid_attrs t with
      | None => false
      | Some ok => forallb (fun kv => memS (fst kv) ok) attrs
      end && forallb all_valid kids
  end.

(** v.split(" ") *)
Fixpoint split_sp (s : string) : list string :=
  match s with
  | EmptyString => [""]
  | String c r =>
      if Ascii.eqb c " " then "" :: split_sp r
      else match split_sp r with [] => [String c ""] | w :: ws => String c w :: ws end
  end.
Fixpoint all_some {A} (l : list (option A)) : option (list A) :=
  match l with
  | [] => Some []
  | None :: _ => None
  | Some a :: r => match all_some r with Some r' => Some (a :: r') | None => None end
  end.
(** from_xml.py 80-87: attributes made of numbers become arrays (np.squeeze: a single number becomes a scalar). *)
Inductive cval := CText (s : string) | CScal (x : R) | CVec (l : list R).
Definition conv (v : string) : cval :=
  match all_some (map float_of (split_sp v)) with
  | None => CText v
  | Some [x] => CScal x
  | Some l => CVec l
  end.
Fixpoint convert (e : xml string) : xml cval :=
  match e with Elem t attrs kids => Elem t (map (fun kv => (fst kv, conv (snd kv))) attrs) (map convert kids) end.

(** from_xml.py 13-25, for one key *)
Definition find_unique {A} (t : string) (e : xml A) : result (option (xml A)) :=
  match findall t (x_kids e) with
  | [] => Ok None
  | [x] => Ok (Some x)
  | _ => Err EAssertion
  end.
(** from_xml.py 28-38 *)
Definition default_of (e : xml cval) (t : string) : result (list (string * cval)) :=
  do d <- find_unique "defaults" e;
  match d with
  | None => Ok []
  | Some d => do x <- find_unique t d; Ok (match x with None => [] | Some x => x_attrs x end)
  end.
(** from_xml.py 69-77 *)
Definition with_defaults (dflt attrs : list (string * cval)) : list (string * cval) :=
  attrs ++ filter (fun kv => negb (dmem String.eqb attrs (fst kv))) dflt.
Fixpoint mix (dgeom dbody : list (string * cval)) (e : xml cval) : xml cval :=
  match e with
  | Elem t attrs kids =>
      Elem t (if String.eqb t "body" then with_defaults dbody attrs
              else if String.eqb t "geom" then with_defaults dgeom attrs else attrs)
        (map (mix dgeom dbody) kids)
  end.

Notation attrs := (list (string * cval)).
Definition aget (a : attrs) (k : string) : option cval := dget String.eqb a k.

Definition as_vec3 (c : cval) : result vec3 :=
  match c with CVec [x; y; z] => Ok (V3 x y z) | _ => Err EValue end.
Definition as_quat (c : cval) : result quat :=
  match c with CVec [w; x; y; z] => Ok (Q4 w x y z) | _ => Err EValue end.
Definition as_text (c : cval) : result string := match c with CText s => Ok s | _ => Err EType end.

(** abstract.py 276-288 *)
Definition get_rotation (a : attrs) : result quat :=
  match aget a "quat" with
  | Some c => do _ <- assert_ (negb (dmem String.eqb a "euler")); as_quat c
  | None =>
      match aget a "euler" with
      | Some c => do e <- as_vec3 c;
                  let r x := (x * PI / 180)%R in
                  Ok (quat_euler AZ AY AX (r (vz e)) (r (vy e)) (r (vx e)) true)
      | None => Ok qone
      end
  end.
(** abstract.py 86-90 *)
Definition get_pos (a : attrs) : result vec3 :=
  match aget a "pos" with Some c => as_vec3 c | None => Ok vzero end.
Definition get_trans (a : attrs) : result transform :=
  do p <- get_pos a; do r <- get_rotation a; Ok (Tr p r).
(** abstract.py 101-119 *)
Definition get_minmax (a : attrs) (pos : vec3) : result (vec3 * vec3) :=
  match aget a "pos_min", aget a "pos_max" with
  | None, None => Ok (pos, pos)
  | Some c, Some d =>
      do lo <- as_vec3 c; do hi <- as_vec3 d;
      do _ <- assert_ (negb (leqb (v3_list lo) (v3_list hi)));
      Ok (lo, hi)
  | _, _ => Err EAssertion
  end.
(** abstract.py 36-46: jnp.atleast_1d *)
Definition get_arr (a : attrs) (key : string) (dflt : list R) : result (list R) :=
  match aget a key with
  | None => Ok dflt
  | Some (CVec l) => Ok l
  | Some (CScal x) => Ok [x]
  | Some (CText _) => Err EType
  end.
(** int(x) *)
Definition int_of (x : R) : Z := if Rle_dec 0 x then Int_part x else (- Int_part (- x))%Z.
(** abstract.py 70-75 *)
Definition get_omc (a : attrs) : result omc_link :=
  do p <- get_pos a;
  do m <- match aget a "pos_marker" with
          | Some (CScal x) => Ok (int_of x)
          | Some (CText _) => Err EValue
          | _ => Err EType end;
  do n <- match aget a "name" with Some c => as_text c | None => Err EType end;
  Ok (mkOmc n m p).

(** abstract.py 130-148: tuple(color.tolist()) of a scalar array raises TypeError. *)
Definition get_color (a : attrs) (key : string) : result (option color) :=
  match aget a key with
  | None => Ok None
  | Some (CText s) => Ok (Some (ColText s))
  | Some (CVec l) => Ok (Some (ColNums l))
  | Some (CScal _) => Err EType
  end.
Definition get_mass (a : attrs) : result R :=
  match aget a "mass" with
  | None => Err EKey | Some (CScal m) => Ok m | Some _ => Err EValue end.
Definition get_dim (a : attrs) : result cval := match aget a "dim" with None => Err EKey | Some c => Ok c end.
(** dims = [geom_attr["dim"][i] for i in range(n)]; assert all positive *)
Definition dims_of (n : nat) (c : cval) : result (list R) :=
  match c with
  | CText _ => Err EType
  | CScal _ => Err EIndex
  | CVec l => if (n <=? length l)%nat then
                do _ <- assert_ (forallb (fun x => if Rlt_dec 0 x then true else false) (firstn n l)); Ok (firstn n l)
              else Err EIndex
  end.
(** abstract.py 166-258; from_xml.py 90-102 *)
Definition get_geom (a : attrs) : result xgeom :=
  do typ <- match aget a "type" with None => Err EKey | Some c => as_text c end;
  if String.eqb typ "xyz" then
    do size <- match aget a "dim" with
               | None => Ok 1%R | Some (CScal x) => Ok x | Some (CVec _) => Err EValue | Some (CText _) => Err EType end;
    do _ <- assert_ (if Rlt_dec 0 size then true else false);
    Ok (mkXG (mkGeom 0 t_zero (XYZ size)) None None)
  else if memS typ ["box"; "sphere"; "cylinder"; "capsule"] then
    do m <- get_mass a;
    do t <- get_trans a;
    do c <- get_color a "color";
    do e <- get_color a "edge_color";
    do d <- get_dim a;
    do sh <- (if String.eqb typ "box" then
                do l <- dims_of 3 d; Ok (Box (nth 0 l 0%R) (nth 1 l 0%R) (nth 2 l 0%R))
              else if String.eqb typ "sphere" then
                match d with
                | CScal r => do _ <- assert_ (if Rlt_dec 0 r then true else false); Ok (Sphere r)
                | CVec _ => Err EValue
                | CText _ => Err EOther
                end
              else if String.eqb typ "cylinder" then
                do l <- dims_of 2 d; Ok (Cylinder (nth 0 l 0%R) (nth 1 l 0%R))
              else do l <- dims_of 2 d; Ok (Capsule (nth 0 l 0%R) (nth 1 l 0%R)));
    Ok (mkXG (mkGeom m t sh) c e)
  else Err EKey.

(** What from_xml.py 158-167 collects per body. *)
Record row := mkRow {
  r_parent : Z; r_type : string; r_name : string; r_t1 : transform; r_pmin : vec3; r_pmax : vec3;
  r_omc : option omc_link; r_d : list R; r_a : list R; r_s : list R; r_z : list R; r_geoms : list xgeom }.

(** from_xml.py 170-212 *)
Definition body_row (a : attrs) (kids : list (xml cval)) (parent : Z) : result row :=
  do typ <- match aget a "joint" with None => Err EKey | Some c => as_text c end;
  do _ <- (if String.eqb typ "cor" then Err EOther else Ok tt);
  do name <- match aget a "name" with
             | None => Err EKey
             | Some (CText s) => Ok s
             | Some (CScal x) => Ok (print_int (int_of x))
             | Some (CVec _) => Err EType end;
  do t <- get_trans a;
  do mm <- get_minmax a (t_pos t);
  do o <- match findall "omc" kids with
          | [] => Ok None
          | [x] => do o <- get_omc (x_attrs x); Ok (Some o)
          | _ => Err EOther end;
  do qn <- wget (qW W) typ;
  do dn <- wget (dW W) typ;
  do d <- get_arr a "damping" (repeat 0%R dn);
  do ar <- get_arr a "armature" (repeat 0%R dn);
  do st <- get_arr a "spring_stiff" (repeat 0%R dn);
  do z <- get_arr a "spring_zero" (default_zeropoint qn typ);
  do gs <- mapM (fun g => get_geom (x_attrs g)) (findall "geom" kids);
  Ok (mkRow parent typ name t (fst mm) (snd mm) o d ar st z gs).

(** from_xml.py 170-217: [idx] is the running link index of this body. *)
Fixpoint process_body (e : xml cval) (parent : Z) (idx : nat) {struct e} : result (list row) :=
  match e with
  | Elem _ a kids =>
      do r <- body_row a kids parent;
      do rs <- (fix go (ks : list (xml cval)) (k : nat) : result (list row) :=
                  match ks with
                  | [] => Ok []
                  | c :: cs =>
                      if String.eqb (x_tag c) "body" then
                        do r1 <- process_body c (Z.of_nat idx) k;
                        do r2 <- go cs (k + length r1)%nat;
                        Ok (r1 ++ r2)
                      else go cs k
                  end) kids (S idx);
      Ok (r :: rs)
  end.
(** from_xml.py 219-220 *)
Fixpoint process_bodies (ks : list (xml cval)) (parent : Z) (idx : nat) : result (list row) :=
  match ks with
  | [] => Ok []
  | c :: cs => if String.eqb (x_tag c) "body" then
                 do r1 <- process_body c parent idx;
                 do r2 <- process_bodies cs parent (idx + length r1);
                 Ok (r1 ++ r2)
               else process_bodies cs parent idx
  end.

(** base.py 340-360: a fresh link *)
Definition fresh_link (r : row) (p : J) : plink J :=
  mkPL (r_t1 r) (r_pmin r) (r_pmax r) p izero t_zero t_zero.

(** from_xml.py 226-257, before System.parse *)
Definition assemble (rows : list row) (world : list xgeom) (dt : R) (grav : list R) (mname : option string) : result (xsys J) :=
  match rows with
  | [] => Err EIndex
  | _ =>
      do ps <- jinit (map r_type rows);
      Ok (mkSys (map r_parent rows) (map (fun rp => fresh_link (fst rp) (snd rp)) (combine rows ps)) (map r_type rows)
            (concat (map r_d rows)) (concat (map r_a rows)) (concat (map r_s rows)) (concat (map r_z rows)) dt
            (concat (map (fun ir => map (fun g => (Z.of_nat (fst ir), g)) (r_geoms (snd ir))) (enum rows))
             ++ map (fun g => ((-1)%Z, g)) world)
            grav "semi_implicit_euler" 0 (map r_name rows) mname (map r_omc rows))
  end.

(** from_xml.py 117-123, 130-259 *)
Definition load (x : xml string) : result (xsys J) :=
  do _ <- assert_ (all_valid x);
  let x := convert x in
  do dg <- default_of x "geom";
  do db <- default_of x "body";
  do w <- find_unique "worldbody" x;
  match w with
  | None => Err EOther
  | Some w =>
      let w := mix dg db w in
      do _ <- assert_ (String.eqb (x_tag x) "x_xy");
      do mname <- match aget (x_attrs x) "model" with None => Ok None | Some c => do m <- as_text c; Ok (Some m) end;
      do opts <- find_unique "options" x;
      let oa := match opts with None => [] | Some o => x_attrs o end in
      do rows <- process_bodies (x_kids w) (-1) 0;
      do world <- mapM (fun g => get_geom (x_attrs g)) (findall "geom" (x_kids w));
      do dt <- match aget oa "dt" with
               | None => Ok (1 / 100)%R | Some (CScal x) => Ok x | Some (CVec _) => Err EType | Some (CText _) => Err EValue end;
      do grav <- match aget oa "gravity" with
                 | None => Ok [0; 0; 981 / 100]%R | Some (CVec l) => Ok l | Some (CScal _) => Err EValue | Some (CText _) => Err EType end;
      do s <- assemble rows world dt grav mname;
      parse W xml_ops s
  end.
End Xml.
