(** Model of the multi-segment problems of chords/opti.py
    (class _multi_pseudospectral, lines 2288-3082).  Conventions as in
    PsModel.v and BuTdModel.v.  The solver options are left out. *)
From Coq Require Import String.
From Verif Require Import Prelude Poly Mat PwModel PwInterpModel PsModel UtilModel BuTdModel.
Open Scope R_scope.
Open Scope vec_scope.
Open Scope list_scope.

(** opti.py:2289-2316 [_check_structure_consistency] for one-dimensional
    arguments.  The number of points of each segment may be any number;
    util.py:571-576 [is_integer]: int(x) == x. *)
Definition is_integer (x : R) : bool := if Req_EM_T (IZR (Int_part x)) x then true else false.
Definition all_lt (a b : R) : bool := if Rlt_dec a b then true else false.
Definition all_le (a b : R) : bool := if Rle_dec a b then true else false.
Definition check_structure (t_start t_end : R) (t_knots point_structure : vec) : Res (list Z) :=
  let n_segments := (length t_knots + 1)%nat in
  if negb (forallb (fun t => all_lt t_start t) t_knots) then Err AssertionError
  else if negb (forallb (fun t => all_lt t t_end) t_knots) then Err AssertionError
  else if negb (forallb (fun c => c) (map2 all_le (butlastn 1 t_knots) (skipn 1 t_knots))) then Err AssertionError
  else if negb (forallb is_integer point_structure) then Err AssertionError
  else if negb (length point_structure =? n_segments)%nat then Err AssertionError
  else Ok (map Int_part point_structure).

(** The three scheme modes "ph pseudospectral", "ph bottom-up pseudospectral"
    and "ph top-down pseudospectral". *)
Inductive ph_mode := Ph_ps | Ph_bu | Ph_td.
Record ph_problem := {
  ph_kind : ph_mode; ph_scheme : string; ph_order : nat; ph_n_q : nat;
  ph_t_start : R; ph_t_end : R }.

(** Values of the casadi variables: x, x_d and u_like_x (n_arr rows), lam (one
    row for each collocation point) and the q_constr of each segment. *)
Record ph_values := { hv_x : mat; hv_x_d : mat; hv_u : mat; hv_lam : mat; hv_q_constr : list mat }.

(** ** Arrays (opti.py:2360-2552) *)
(** opti.py:2363-2366: n_arr. *)
Definition ph_n_arr (ns : list nat) : nat := (list_sum ns + length ns + 1)%nat.
(** opti.py:2396-2404, 2420-2426: the bounds ii_inf, ii_sup of each segment. *)
Fixpoint seg_rows (ii_inf : nat) (ns : list nat) : list (nat * nat) :=
  match ns with
  | [] => []
  | n :: ns' => let ii_sup := (ii_inf + n)%nat in (ii_inf, ii_sup) :: seg_rows (ii_sup + 1) ns'
  end.
(** The lists x_col, x_d_col and u_col. *)
Definition ph_col (ns : list nat) (X : mat) : list mat :=
  map (fun b => slice (fst b) (snd b) X) (seg_rows 1 ns).
(** The lists x_knot, x_d_knot and u_knot: the last one is popped. *)
Definition ph_knot (ns : list nat) (X : mat) : list vec :=
  butlastn 1 (map (fun b => mrow (snd b) X) (seg_rows 1 ns)).
(** x_knot_ext, x_d_knot_ext and u_knot_ext. *)
Definition ph_knot_ext (ns : list nat) (X : mat) : list vec :=
  [mrow 0 X] ++ ph_knot ns X ++ [mrow (length X - 1) X].
(** x_like_u, x_d_like_u and u: cas.vertcat of the list. *)
Definition ph_like_u (ns : list nat) (X : mat) : mat := concat (ph_col ns X).

(** opti.py:2433-2439: t_knots_and_extremes_arr and h_arr *)
Definition ph_t_knot_ext (p : ph_problem) (knots : vec) : vec := [ph_t_start p] ++ knots ++ [ph_t_end p].
Definition ph_h (p : ph_problem) (knots : vec) (seg_ii : nat) : R :=
  vnth (ph_t_knot_ext p knots) (seg_ii + 1) - vnth (ph_t_knot_ext p knots) seg_ii.

Section Ph.
Variable real_roots : list R -> list R.
Variable leggauss : nat -> vec * vec.

(** opti.py:2441-2470: the times of the collocation points of each segment
    (list t_col) and all the times in order (array t). *)
Definition ph_t_col (p : ph_problem) (knots : vec) (ns : list nat) : Res (list vec) :=
  mapm (fun seg_ii =>
      do col_tau <- coll_points real_roots (nth seg_ii ns O) (ph_scheme p) (ph_order p);
      Ok (tau_to_t_points col_tau (vnth (ph_t_knot_ext p knots) seg_ii)
            (vnth (ph_t_knot_ext p knots) (seg_ii + 1))))
    (seq 0 (length ns)).
Definition ph_t_arr (p : ph_problem) (knots : vec) (ns : list nat) : Res vec :=
  do cols <- ph_t_col p knots ns;
  Ok ([ph_t_start p] ++
      flat_map (fun seg_ii => nth seg_ii cols [] ++ [vnth (ph_t_knot_ext p knots) (seg_ii + 1)])
        (seq 0 (length ns))).

(** opti.py:2526-2575: the columns of q and its derivatives, of an array and of
    one row. *)
Definition ph_der (p : ph_problem) (i : nat) (x x_d : mat) : mat :=
  if (i <? ph_order p)%nat then mcols (ph_n_q p * i) (ph_n_q p * (i + 1)) x
  else mlastcols (ph_n_q p) x_d.
Definition ph_der_row (p : ph_problem) (i : nat) (x x_d : vec) : vec :=
  if (i <? ph_order p)%nat then slice (ph_n_q p * i) (ph_n_q p * (i + 1)) x
  else lastn (ph_n_q p) x_d.

(** What apply_scheme reads of one segment. *)
Record ph_segment := {
  sg_n : nat; sg_h : R; sg_first : bool; sg_last : bool;
  sg_x : mat; sg_x_d : mat; sg_u : mat;                 (* x_col, x_d_col, u_col *)
  sg_xs : vec; sg_xe : vec; sg_xds : vec; sg_xde : vec; (* x_knot_ext, x_d_knot_ext *)
  sg_us : vec; sg_q_constr : mat }.
Definition ph_seg (p : ph_problem) (knots : vec) (ns : list nat) (w : ph_values) (k : nat) : ph_segment :=
  {| sg_n := nth k ns O; sg_h := ph_h p knots k;
     sg_first := (k =? 0)%nat; sg_last := (k =? length ns - 1)%nat;
     sg_x := nth k (ph_col ns (hv_x w)) []; sg_x_d := nth k (ph_col ns (hv_x_d w)) [];
     sg_u := nth k (ph_col ns (hv_u w)) [];
     sg_xs := nth k (ph_knot_ext ns (hv_x w)) []; sg_xe := nth (k + 1) (ph_knot_ext ns (hv_x w)) [];
     sg_xds := nth k (ph_knot_ext ns (hv_x_d w)) []; sg_xde := nth (k + 1) (ph_knot_ext ns (hv_x_d w)) [];
     sg_us := nth k (ph_knot_ext ns (hv_u w)) [];
     sg_q_constr := nth k (hv_q_constr w) [] |}.

(** x[n_q:] == x_d[:-n_q] of a row.  With order 1 both sides are empty; casadi
    then refuses the constraint, which is not modelled. *)
Definition chain_constr (p : ph_problem) (x x_d : vec) : constr :=
  ([skipn (ph_n_q p) x], [butlastn (ph_n_q p) x_d]).

(** opti.py:2815-2852: the constraints of a top-down segment.  The condition
    [ii <= order] of line 2840 always holds. *)
Definition td_segment (p : ph_problem) (coll_index : slice_idx) (g : ph_segment) : Res (list constr) :=
  let order := ph_order p in
  do D_nu <- matrix_D_nu real_roots (order + sg_n g);
  do L <- matrix_L real_roots (sg_n g) (ph_scheme p) order;
  let cs := flat_map (fun ii =>
      let deriv_matrix := mmul (mscale ((2 / sg_h g) ^ ii) L) (mpow D_nu ii) in
      let res_mat := mmul deriv_matrix (sg_q_constr g) in
      [(ph_der p ii (sg_x g) (sg_x_d g), take coll_index res_mat);
       ([ph_der_row p ii (sg_xs g) (sg_xds g)], [mrow 0 res_mat]);
       ([ph_der_row p ii (sg_xe g) (sg_xde g)], [mrow (length res_mat - 1) res_mat])])
    (seq 0 (order + 1)) in
  Ok (cs ++ [chain_constr p (sg_xe g) (sg_xde g)]
         ++ (if sg_first g then [chain_constr p (sg_xs g) (sg_xds g)] else [])).

(** opti.py:2854-2946: the constraints of a bottom-up segment. *)
Definition bu_segment (p : ph_problem) (coll_index : slice_idx) (g : ph_segment) : Res (list constr) :=
  let order := ph_order p in
  let scheme := ph_scheme p in
  let hi_col := ph_der p order (sg_x g) (sg_x_d g) in
  let hi_start := ph_der_row p order (sg_xs g) (sg_xds g) in
  let hi_end := ph_der_row p order (sg_xe g) (sg_xde g) in
  let polynomial_data := map (fun ii => ph_der_row p ii (sg_xs g) (sg_xds g)) (seq 0 order) ++ hi_col in
  do cs1 <-
    (if mem scheme (gauss_like ++ radau_inv) then
       do start_mat <- Extreme_Matrix real_roots (sg_n g) scheme "start" order;
       Ok [([hi_start], mmul start_mat hi_col)]
     else if mem scheme (lobato_like ++ radau_like) then Ok [([hi_start], [mrow 0 hi_col])]
     else Err ValueError);
  do cs2 <-
    (if sg_last g then
       if mem scheme (gauss_like ++ radau_like) then
         do end_mat <- Extreme_Matrix real_roots (sg_n g) scheme "end" order;
         Ok [([hi_end], mmul end_mat hi_col)]
       else if mem scheme (lobato_like ++ radau_inv) then Ok [([hi_end], [mrow (length hi_col - 1) hi_col])]
       else Err ValueError
     else Ok []);
  let cs3 := [chain_constr p (sg_xe g) (sg_xde g)]
             ++ (if sg_first g then [chain_constr p (sg_xs g) (sg_xds g)] else []) in
  do cs4 <- mapm (fun ii =>
      do I_mat <- Integration_Matrix real_roots leggauss (sg_n g) scheme ii (sg_h g) order;
      let res_mat := [ph_der_row p ii (sg_xs g) (sg_xds g)] ++ mmul I_mat polynomial_data in
      Ok [(ph_der p ii (sg_x g) (sg_x_d g), take coll_index res_mat);
          ([ph_der_row p ii (sg_xe g) (sg_xde g)], [mrow (length res_mat - 1) res_mat])])
    (seq 0 order);
  Ok (cs1 ++ cs2 ++ cs3 ++ concat cs4).

(** opti.py:2948-3027: the constraints of a pseudospectral segment. *)
Definition ps_segment (p : ph_problem) (g : ph_segment) : Res (list constr) :=
  let scheme := ph_scheme p in
  let nq := ph_n_q p in
  do n_nodes <- n_col_to_n_nodes scheme (sg_n g);
  do D_mat <- matrix_D_bary real_roots n_nodes scheme;
  let b1 := mem scheme (gauss_like ++ radau_inv ++ gauss_2) in
  let b2 := mem scheme (gauss_inv ++ radau_like ++ gauss_2) in
  let x_node := (if b1 then [sg_xs g] else []) ++ sg_x g ++ (if b2 then [sg_xe g] else []) in
  let x_d_node := (if b1 then [sg_xds g] else []) ++ sg_x_d g ++ (if b2 then [sg_xde g] else []) in
  let last_row := fun X : mat => mrow (length X - 1) X in
  let cs1 := [(x_d_node, mscale (2 / sg_h g) (mmul D_mat x_node))] in
  let cs2 :=
    if mem scheme gauss_2 then
      [([skipn nq (sg_xs g)], [butlastn nq (sg_xds g)])]
      ++ (if sg_last g then [([skipn nq (sg_xe g)], [butlastn nq (sg_xde g)])] else [])
    else [] in
  let cs3 :=
    if mem scheme (lobato_like ++ radau_like) then
      [([sg_xs g], [mrow 0 x_node])] ++ (if sg_first g then [([sg_xds g], [mrow 0 x_d_node])] else [])
    else [] in
  let cs4 := if mem scheme (lobato_like ++ radau_inv) then [([sg_xe g], [last_row x_node])] else [] in
  let cs5 := if mem scheme lobato_like then [([sg_xde g], [last_row x_d_node])] else [] in
  let cs6 := if mem scheme radau_inv && sg_last g then [([sg_xde g], [last_row x_d_node])] else [] in
  do cs7 <-
    (if mem scheme gauss_inv then
       do f_start <- get_bary_extreme_f real_roots scheme n_nodes "x" "start" (ph_order p);
       do v <- run_extreme_cols f_start x_node;
       do d <- run_extreme_cols f_start (mlastcols nq x_d_node);
       Ok ([([sg_xs g], [v]); ([lastn nq (sg_xds g)], [d])]
           ++ (if sg_first g then [chain_constr p (sg_xs g) (sg_xds g)] else []))
     else Ok []);
  do cs8 <-
    (if mem scheme gauss_like then
       do f_end <- get_bary_extreme_f real_roots scheme n_nodes "x" "end" (ph_order p);
       do v <- run_extreme_cols f_end x_node;
       do d <- run_extreme_cols f_end (mlastcols nq x_d_node);
       Ok ([([sg_xe g], [v]); ([lastn nq (sg_xde g)], [d])]
           ++ (if sg_last g then [chain_constr p (sg_xe g) (sg_xde g)] else []))
     else Ok []);
  Ok (cs1 ++ cs2 ++ cs3 ++ cs4 ++ cs5 ++ cs6 ++ cs7 ++ cs8).

(** opti.py:3033-3048: the dynamics at every collocation point. *)
Definition ph_dyn (dyn : vec -> vec -> vec -> vec -> vec) (ns : list nat) (w : ph_values) : list constr :=
  map (fun ii =>
      let r := dyn (mrow ii (ph_like_u ns (hv_x w))) (mrow ii (ph_like_u ns (hv_x_d w)))
                   (mrow ii (ph_like_u ns (hv_u w))) (mrow ii (hv_lam w)) in
      ([r], [map (fun _ => 0) r]))
    (seq 0 (list_sum ns)).

(** opti.py:3050-3082: u at the start of each segment, and at the end. *)
Definition ph_u_start (p : ph_problem) (g : ph_segment) : Res constr :=
  if mem (ph_scheme p) (radau_like ++ lobato_like) then Ok ([sg_us g], [mrow 0 (sg_u g)])
  else do f <- get_bary_extreme_f real_roots (ph_scheme p) (sg_n g) "u" "start" (ph_order p);
       do v <- run_extreme_cols f (sg_u g);
       Ok ([sg_us g], [v]).
Definition ph_u_end (p : ph_problem) (g : ph_segment) (u_e : vec) : Res constr :=
  if mem (ph_scheme p) (radau_inv ++ lobato_like) then Ok ([u_e], [mrow (length (sg_u g) - 1) (sg_u g)])
  else do f <- get_bary_extreme_f real_roots (ph_scheme p) (sg_n g) "u" "end" (ph_order p);
       do v <- run_extreme_cols f (sg_u g);
       Ok ([u_e], [v]).

(** opti.py:2771-3082 [apply_scheme].  [dyn] is dyn_f_restr with the parameters
    fixed. *)
Definition ph_apply_scheme (dyn : vec -> vec -> vec -> vec -> vec) (p : ph_problem) (knots : vec)
  (ns : list nat) (w : ph_values) : Res (list constr) :=
  do coll_index <- get_coll_indices (ph_scheme p);
  let seg := ph_seg p knots ns w in
  do cs1 <- mapm (fun k =>
      match ph_kind p with
      | Ph_td => td_segment p coll_index (seg k)
      | Ph_bu => bu_segment p coll_index (seg k)
      | Ph_ps => ps_segment p (seg k)
      end) (seq 0 (length ns));
  do cs2 <- mapm (fun k => ph_u_start p (seg k)) (seq 0 (length ns));
  do c3 <- ph_u_end p (seg (length ns - 1)%nat) (mrow (length (hv_u w) - 1) (hv_u w));
  Ok (concat cs1 ++ ph_dyn dyn ns w ++ cs2 ++ [c3]).
End Ph.
