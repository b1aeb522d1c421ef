(** Property C42: initial guesses.  Only statements.  [der_guess order n_q k g j] is
    the initial value of the derivative of order k of q at the j-th point, whose
    time is [vnth (ip_t p) j]; [line], [polyline] and [slopes] are in InitSpec. *)
From Coq Require Import String.
From Verif Require Import Prelude Mat Poly PolyInterp PsModel PsSpec UtilModel UtilSpec DispatchModel CostModel EquiModel
  InitModel InitSpec InitProofs InitLinProofs InitWayProofs InitFinalProofs InitCustomProofs
  PhModel PhSpec InitPhModel InitPhProofs.
Open Scope string_scope.
Open Scope list_scope.
Open Scope R_scope.

(** ** C42: initial guesses *)

(** For problems of every class.  The last line: all of x_d but its last block stays zero, so the guess of x_d does not repeat that of v. *)
Theorem C42_linear :
  forall rr, real_roots_ok rr -> forall p q_s q_e g nu,
  let order := ip_order p in let n_q := ip_n_q p in let N := length (ip_t p) in
  let path := line (ip_t_start p) (ip_t_end p) q_s q_e in let slope := vdivs (vsub q_e q_s) (ip_t_end p - ip_t_start p) in
  (1 <= order)%nat -> (1 <= n_q)%nat -> ip_t_start p < ip_t_end p -> (1 <= N)%nat ->
  Forall (fun s => ip_t_start p <= s <= ip_t_end p) (ip_t p) -> fresh g N (order * n_q) nu (N - 1) (ip_n_constr p) n_q ->
  (ip_class p = TD_Pseudospectral -> (2 <= ip_n_constr p)%nat) -> length q_s = n_q -> length q_e = n_q ->
  exists g', lin_guess rr p (Q_array q_s) (Q_array q_e) g = Ok g' /\
    (forall j, (j < N)%nat ->
       der_guess order n_q 0 g' j = path (vnth (ip_t p) j) /\ der_guess order n_q 1 g' j = slope /\
       forall k, (2 <= k <= order)%nat -> der_guess order n_q k g' j = repeat 0 n_q) /\
    (ip_class p = TD_Pseudospectral -> forall j, (j < ip_n_constr p)%nat ->
       mrow j (g_q_constr g') = path (vnth (constr_times rr p) j)) /\
    (ip_class p = Equispaced -> (2 <= order)%nat -> sub_in "hs" (ip_scheme p) = true -> forall j, (j + 1 < N)%nat ->
       der_guess_c order n_q 0 g' j = path ((vnth (ip_t p) j + vnth (ip_t p) (j + 1)) / 2) /\
       der_guess_c order n_q 1 g' j = slope /\
       forall k, (2 <= k <= order)%nat -> der_guess_c order n_q k g' j = repeat 0 n_q) /\
    ((2 <= order)%nat -> forall j, (j < N)%nat -> firstn (order * n_q - n_q) (mrow j (g_x_d g')) = repeat 0 (order * n_q - n_q)).
Proof. exact (lin_ok). Qed.
Print Assumptions C42_linear.

(** The straight line starts at q_s ... *)
Theorem C42_line_start :
  forall t0 t1 a b, length b = length a -> line t0 t1 a b t0 = a.
Proof. exact (line_start). Qed.
Print Assumptions C42_line_start.

(** ... and ends at q_e. *)
Theorem C42_line_end :
  forall t0 t1 a b, t0 <> t1 -> length b = length a -> line t0 t1 a b t1 = b.
Proof. exact (line_end). Qed.
Print Assumptions C42_line_end.

(** With "hsj" the interior point is at two fifths of the interval, but its guess is that of the middle. *)
Theorem C42_hsj_refuted :
  forall rr, real_roots_ok rr -> exists g', lin_guess rr (ini_example Equispaced "hsj") (Q_array [0]) (Q_array [2]) new_guess = Ok g' /\
  eq_t_c_arr "hsj" [0; 1; 2] = [2 / 5; 7 / 5] /\ der_guess_c 2 1 0 g' 0 = [1 / 2] /\ line 0 2 [0] [2] (2 / 5) = [2 / 5].
Proof. exact (hsj_centre). Qed.
Print Assumptions C42_hsj_refuted.

(** A number as position, as the documentation allows, is an IndexError. *)
Theorem C42_float_refuted :
  forall rr p r r' g, lin_guess rr p (Q_float r) (Q_float r') g = Err IndexError.
Proof. exact (lin_floats). Qed.
Print Assumptions C42_float_refuted.

(** The guess of q is the polygonal line through the waypoints, that of each derivative the polygonal line through the slopes of the one before, and the controls the one through u_points. *)
Theorem C42_waypoints :
  forall rr, real_roots_ok rr -> forall p q_points t_points u_points g nu,
  let order := ip_order p in let n_q := ip_n_q p in let N := length (ip_t p) in
  let tp := way_times p q_points t_points in let tu := u_times p in
  let within := within_times tp in
  (1 <= order)%nat -> (1 <= n_q)%nat -> ip_t_start p < ip_t_end p -> (1 <= N)%nat ->
  increasing tp -> (2 <= length tp)%nat -> shaped (length tp) n_q q_points -> within (ip_t p) ->
  fresh g N (order * n_q) nu (N - 1) (ip_n_constr p) n_q ->
  (ip_class p = TD_Pseudospectral -> (2 <= ip_n_constr p)%nat /\ within [ip_t_start p; ip_t_end p]) ->
  (ip_class p = Equispaced -> (2 <= N)%nat) ->
  (forall up, u_points = Some up -> shaped (length tp) nu up /\ within tu /\ shaped (length tu) nu (g_u g) /\
     (1 <= length tu)%nat /\ (ip_class p = Equispaced -> length tu = N)) ->
  exists g' Ds, waypoints_guess rr p q_points t_points u_points g = Ok g' /\
    length Ds = (order + 1)%nat /\ nth 0 Ds [] = q_points /\ successive_slopes tp Ds n_q /\
    (forall k j, (k <= order)%nat -> (j < N)%nat -> polyline tp (nth k Ds []) (vnth (ip_t p) j) (der_guess order n_q k g' j)) /\
    (forall j, (j < N)%nat -> skipn n_q (mrow j (g_x g')) = butlastn n_q (mrow j (g_x_d g'))) /\
    (ip_class p = TD_Pseudospectral -> forall j, (j < ip_n_constr p)%nat ->
       polyline tp q_points (vnth (constr_times rr p) j) (mrow j (g_q_constr g'))) /\
    (ip_class p = Equispaced -> sub_in "hs" (ip_scheme p) = true -> forall j, (j + 1 < N)%nat ->
       mrow j (g_x_c g') = vdivs (vadd (mrow j (g_x g')) (mrow (j + 1) (g_x g'))) 2 /\
       mrow j (g_x_d_c g') = vdivs (vadd (mrow j (g_x_d g')) (mrow (j + 1) (g_x_d g'))) 2) /\
    (forall up, u_points = Some up -> forall j, (j < length tu)%nat -> polyline tp up (vnth tu j) (mrow j (g_u g'))).
Proof. exact (way_ok). Qed.
Print Assumptions C42_waypoints.

(** A polygonal line passes through its points ... *)
Theorem C42_waypoint_hit :
  forall ts Y m i v, increasing ts -> shaped (length ts) m Y -> (i < length ts)%nat ->
  polyline ts Y (vnth ts i) v -> v = mrow i Y.
Proof. exact (polyline_node). Qed.
Print Assumptions C42_waypoint_hit.

(** ... and is a function of the time. *)
Theorem C42_polyline_unique :
  forall ts Y m t v v', increasing ts -> shaped (length ts) m Y -> polyline ts Y t v -> polyline ts Y t v' -> v = v'.
Proof. exact (polyline_fun). Qed.
Print Assumptions C42_polyline_unique.

(** For waypoints on a straight line the slopes are its slope. *)
Theorem C42_straight :
  forall ts Y D m a b, (2 <= length ts)%nat -> slopes ts Y D m -> length b = m ->
  (forall i c, (i < length ts)%nat -> (c < m)%nat -> vnth (mrow i Y) c = vnth a c + vnth b c * vnth ts i) ->
  D = repeat b (length ts).
Proof. exact (slopes_straight). Qed.
Print Assumptions C42_straight.

Theorem C42_zero_partial :
  forall p g N, (1 <= ip_order p)%nat -> (1 <= ip_n_q p)%nat ->
  shaped N (ip_order p * ip_n_q p) (g_x g) -> shaped N (ip_order p * ip_n_q p) (g_x_d g) ->
  (2 <= ip_order p)%nat \/ ip_class p <> Equispaced -> exists g', zero_guess p g = Ok g' /\
  forall j, (j < N)%nat -> der_guess (ip_order p) (ip_n_q p) 0 g' j = repeat 0 (ip_n_q p) /\
    der_guess (ip_order p) (ip_n_q p) 1 g' j = repeat 0 (ip_n_q p) /\
    (ip_class p = Equispaced -> der_guess (ip_order p) (ip_n_q p) 2 g' j = repeat 0 (ip_n_q p)).
Proof. exact (zero_ok). Qed.
Print Assumptions C42_zero_partial.

(** The default guess fails in equispaced problems of order 1. *)
Theorem C42_zero_refuted :
  forall p g N, (1 <= ip_order p)%nat -> (1 <= ip_n_q p)%nat ->
  shaped N (ip_order p * ip_n_q p) (g_x g) -> shaped N (ip_order p * ip_n_q p) (g_x_d g) ->
  ip_class p = Equispaced -> ip_order p = 1%nat -> zero_guess p g = Err NotImplementedError.
Proof. exact (zero_fails). Qed.
Print Assumptions C42_zero_refuted.

Theorem C42_custom :
  forall rr p q v a u g N Nu nu, (1 <= ip_order p)%nat -> (1 <= ip_n_q p)%nat -> (1 <= Nu)%nat ->
  shaped N (ip_order p * ip_n_q p) (g_x g) -> shaped N (ip_order p * ip_n_q p) (g_x_d g) -> shaped Nu nu (g_u g) ->
  shaped N (ip_n_q p) q -> shaped N (ip_n_q p) v -> shaped Nu nu u ->
  ip_class p = Pseudospectral \/ ip_class p = BU_Pseudospectral ->
  exists g', custom_guess rr p q v a u g = Ok g' /\ g_u g' = u /\
  forall j, (j < N)%nat -> der_guess (ip_order p) (ip_n_q p) 0 g' j = mrow j q /\ der_guess (ip_order p) (ip_n_q p) 1 g' j = mrow j v /\
    forall k, (2 <= k <= ip_order p)%nat -> der_guess (ip_order p) (ip_n_q p) k g' j = der_guess (ip_order p) (ip_n_q p) k g j.
Proof. exact (custom_ps_ok). Qed.
Print Assumptions C42_custom.

(** The accelerations of a custom guess are ignored: zero is used whatever they are. *)
Theorem C42_custom_a_refuted :
  forall rr p q v a u g N Nu nu, (1 <= ip_order p)%nat -> (1 <= ip_n_q p)%nat -> (1 <= Nu)%nat ->
  shaped N (ip_order p * ip_n_q p) (g_x g) -> shaped N (ip_order p * ip_n_q p) (g_x_d g) -> shaped Nu nu (g_u g) ->
  shaped N (ip_n_q p) q -> shaped N (ip_n_q p) v -> shaped Nu nu u ->
  ip_class p = Equispaced -> (2 <= ip_order p)%nat -> sub_in "hs" (ip_scheme p) = false ->
  exists g', custom_guess rr p q v a u g = Ok g' /\ g_u g' = u /\
  forall j, (j < N)%nat -> der_guess (ip_order p) (ip_n_q p) 0 g' j = mrow j q /\ der_guess (ip_order p) (ip_n_q p) 1 g' j = mrow j v /\
    der_guess (ip_order p) (ip_n_q p) 2 g' j = repeat 0 (ip_n_q p).
Proof. exact (custom_eq_ok). Qed.
Print Assumptions C42_custom_a_refuted.

(** Top-down problems: the positions used in the constraints take the values of the polygonal line through the positions given, held constant before the first point and after the last. *)
Theorem C42_custom_td :
  forall rr, real_roots_ok rr -> forall p q v a u g N Nu nu, (1 <= ip_order p)%nat -> (1 <= ip_n_q p)%nat -> (1 <= Nu)%nat ->
  shaped N (ip_order p * ip_n_q p) (g_x g) -> shaped N (ip_order p * ip_n_q p) (g_x_d g) -> shaped Nu nu (g_u g) ->
  shaped N (ip_n_q p) q -> shaped N (ip_n_q p) v -> shaped Nu nu u ->
  ip_class p = TD_Pseudospectral -> length (ip_t p) = N -> increasing (ip_t p) -> (2 <= N)%nat ->
  (2 <= ip_n_constr p)%nat -> shaped (ip_n_constr p) (ip_n_q p) (g_q_constr g) ->
  exists g', custom_guess rr p q v a u g = Ok g' /\ g_u g' = u /\
  (forall j, (j < N)%nat -> der_guess (ip_order p) (ip_n_q p) 0 g' j = mrow j q /\ der_guess (ip_order p) (ip_n_q p) 1 g' j = mrow j v /\
    forall k, (2 <= k <= ip_order p)%nat -> der_guess (ip_order p) (ip_n_q p) k g' j = der_guess (ip_order p) (ip_n_q p) k g j) /\
  length (g_q_constr g') = ip_n_constr p /\
  forall j, (j < ip_n_constr p)%nat -> held_line (ip_t p) q (vnth (constr_times rr p) j) (mrow j (g_q_constr g')).
Proof. exact (custom_td_ok). Qed.
Print Assumptions C42_custom_td.

(** Hermite-Simpson schemes: the interior points take the means of the values given at the ends of their interval, the accelerations included, although at the nodes these are zero. *)
Theorem C42_custom_hs :
  forall rr p q v a u g N Nu nu, (1 <= ip_order p)%nat -> (1 <= ip_n_q p)%nat -> (1 <= Nu)%nat ->
  shaped N (ip_order p * ip_n_q p) (g_x g) -> shaped N (ip_order p * ip_n_q p) (g_x_d g) -> shaped Nu nu (g_u g) ->
  shaped N (ip_n_q p) q -> shaped N (ip_n_q p) v -> shaped Nu nu u ->
  ip_class p = Equispaced -> (2 <= ip_order p)%nat -> sub_in "hs" (ip_scheme p) = true ->
  (2 <= N)%nat -> Nu = N -> shaped N (ip_n_q p) a -> shaped (N - 1) (ip_order p * ip_n_q p) (g_x_c g) ->
  shaped (N - 1) (ip_order p * ip_n_q p) (g_x_d_c g) -> shaped (N - 1) nu (g_u_c g) ->
  exists g', custom_guess rr p q v a u g = Ok g' /\ g_u g' = u /\
  (forall j, (j < N)%nat -> der_guess (ip_order p) (ip_n_q p) 0 g' j = mrow j q /\ der_guess (ip_order p) (ip_n_q p) 1 g' j = mrow j v /\
    der_guess (ip_order p) (ip_n_q p) 2 g' j = repeat 0 (ip_n_q p)) /\
  forall j, (j + 1 < N)%nat ->
    let mean M := vdivs (vadd (mrow j M) (mrow (j + 1) M)) 2 in
    der_guess_c (ip_order p) (ip_n_q p) 0 g' j = mean q /\ der_guess_c (ip_order p) (ip_n_q p) 1 g' j = mean v /\
    der_guess_c (ip_order p) (ip_n_q p) 2 g' j = mean a /\ mrow j (g_u_c g') = mean u.
Proof. exact (custom_hs_ok). Qed.
Print Assumptions C42_custom_hs.

(** Problems of several segments, [ns] being their numbers of points: the controls given are the initial values at the collocation points, segment by segment. *)
Theorem C42_custom_ph_partial :
  forall ns p q v u g nu, let N := ph_n_arr ns in
  (1 <= ip_order p)%nat -> (1 <= ip_n_q p)%nat -> (1 <= length ns)%nat ->
  shaped N (ip_order p * ip_n_q p) (g_x g) -> shaped N (ip_order p * ip_n_q p) (g_x_d g) -> shaped N nu (g_u g) ->
  shaped N (ip_n_q p) q -> shaped N (ip_n_q p) v -> shaped (list_sum ns) nu u ->
  exists g', custom_guess_ph ns p q v u g = Ok g' /\
  (forall j, (j < N)%nat -> der_guess (ip_order p) (ip_n_q p) 0 g' j = mrow j q /\ der_guess (ip_order p) (ip_n_q p) 1 g' j = mrow j v /\
    forall k, (2 <= k <= ip_order p)%nat -> der_guess (ip_order p) (ip_n_q p) k g' j = der_guess (ip_order p) (ip_n_q p) k g j) /\
  (forall s i, (s < length ns)%nat -> (i < nth s ns 0)%nat -> mrow (point_row ns s i) (g_u g') = mrow (point_number ns s i) u) /\
  (forall k, (k <= length ns)%nat -> mrow (knot_row ns k) (g_u g') = mrow (knot_row ns k) (g_u g)) /\
  g_q_constr g' = g_q_constr g.
Proof. exact (custom_ph_ok). Qed.
Print Assumptions C42_custom_ph_partial.

(** So the controls at the knots and ends, which are variables too, and the positions of the constraints of top-down problems get no initial value: controls for every point are refused. *)
Theorem C42_custom_ph_refuted :
  forall ns p q v u g nu, let N := ph_n_arr ns in
  (1 <= ip_order p)%nat -> (1 <= ip_n_q p)%nat ->
  shaped N (ip_order p * ip_n_q p) (g_x g) -> shaped N (ip_order p * ip_n_q p) (g_x_d g) ->
  shaped N (ip_n_q p) q -> shaped N nu u -> custom_guess_ph ns p q v u g = Err RuntimeError.
Proof. exact (custom_ph_like_x). Qed.
Print Assumptions C42_custom_ph_refuted.

Example C42_custom_ph_example :
  let z6 := repeat [0] 6 in let z66 := repeat [0; 0] 6 in
  let g := {| g_x := z66; g_x_d := z66; g_u := z6; g_x_c := []; g_x_d_c := []; g_u_c := []; g_q_constr := repeat [0] 3 |} in
  let p := {| ip_class := multi_pseudospectral; ip_scheme := "LG"%string; ip_order := 2; ip_n_q := 1; ip_t_start := 0; ip_t_end := 2;
              ip_t := []; ip_t_col := []; ip_n_constr := 3 |} in
  exists g', custom_guess_ph [2; 1]%nat p [[1]; [2]; [3]; [4]; [5]; [6]] [[1]; [2]; [3]; [4]; [5]; [6]] [[7]; [8]; [9]] g = Ok g' /\
  g_u g' = [[0]; [7]; [8]; [0]; [9]; [0]] /\ map (der_guess 2 1 0 g') (seq 0 6) = [[1]; [2]; [3]; [4]; [5]; [6]] /\
  g_q_constr g' = [[0]; [0]; [0]].
Proof. exact (custom_ph_example). Qed.

(** The line held constant outside is a function of the time. *)
Theorem C42_held_unique :
  forall ts Y m t v v', increasing ts -> (2 <= length ts)%nat -> shaped (length ts) m Y ->
  held_line ts Y t v -> held_line ts Y t v' -> v = v'.
Proof. exact (held_unique). Qed.
Print Assumptions C42_held_unique.

Example C42_custom_td_example :
  forall rr, real_roots_ok rr -> exists g',
  custom_guess rr (ini_example TD_Pseudospectral "LG") [[1]; [3]; [2]] [[4]; [5]; [6]] [[7]; [8]; [9]] [[1]; [2]; [3]] new_guess = Ok g' /\
  map (der_guess 2 1 0 g') [0; 1; 2]%nat = [[1]; [3]; [2]] /\ mrow 0 (g_q_constr g') = [1].
Proof. exact (custom_example_td). Qed.

Example C42_custom_hs_example :
  forall rr, exists g',
  custom_guess rr (ini_example Equispaced "hs") [[1]; [3]; [2]] [[4]; [6]; [6]] [[7]; [9]; [9]] [[1]; [3]; [3]] new_guess = Ok g' /\
  der_guess_c 2 1 0 g' 0 = [2] /\ der_guess_c 2 1 1 g' 0 = [5] /\ der_guess_c 2 1 2 g' 0 = [8] /\ der_guess 2 1 2 g' 0 = [0] /\ mrow 0 (g_u_c g') = [2].
Proof. exact (custom_example_hs). Qed.

Example C42_linear_example :
  forall rr, real_roots_ok rr -> forall c s, exists g', lin_guess rr (ini_example c s) (Q_array [1]) (Q_array [5]) new_guess = Ok g' /\
  map (der_guess 2 1 0 g') [0; 1; 2]%nat = [[1]; [3]; [5]] /\ map (der_guess 2 1 1 g') [0; 1; 2]%nat = [[2]; [2]; [2]] /\
  map (der_guess 2 1 2 g') [0; 1; 2]%nat = [[0]; [0]; [0]].
Proof. exact (lin_example). Qed.

Example C42_waypoints_example :
  forall rr, real_roots_ok rr -> forall c s, exists g',
  waypoints_guess rr (ini_example c s) [[1]; [5]; [5]] None None new_guess = Ok g' /\
  map (der_guess 2 1 0 g') [0; 1; 2]%nat = [[1]; [5]; [5]] /\ map (der_guess 2 1 1 g') [0; 1; 2]%nat = [[4]; [2]; [0]].
Proof. exact (way_example). Qed.
