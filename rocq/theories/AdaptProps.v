(** Properties C50, C51, C52 and C70: adaptive refinement.  Only statements. *)
From Coq Require Import Reals List String ZArith.
From Verif Require Import Prelude Poly PolyInterp Mat PsModel JacobiFacts PsSpec UtilModel UtilSpec BuTdModel BuTdSpec
  PhModel PhSpec PhExamples AnalysisModel AnalysisSpec AdaptModel AdaptSpec AdaptProofs AdaptErrProofs AdaptExamples.
Import ListNotations.
Open Scope R_scope.
Open Scope vec_scope.
Open Scope list_scope.

(** ** C50: the new structure *)

(** With as many numbers to add as segments and one more end than segments, calc_new_struct returns; each old segment becomes the segments that [split_of] says. *)
Theorem C50_structure :
  forall (min_p max_p : Z) (p add : list Z) (T : vec), (1 <= max_p)%Z ->
  length add = length p -> length T = (length p + 1)%nat -> p <> [] ->
  exists knots ps kss pss, calc_new_struct min_p max_p p add T = Ok (knots, ps) /\
    knots ++ [last T 0] = concat kss /\ ps = concat pss /\ length kss = length p /\ length pss = length p /\
    forall i, (i < length p)%nat ->
      split_of min_p max_p (nth i p 0 + nth i add 0)%Z (vnth T i) (vnth T (i + 1)) (nth i kss []) (nth i pss []).
Proof. exact (struct_ok). Qed.
Print Assumptions C50_structure.

(** There is one knot less than segments. *)
Theorem C50_knots :
  forall (min_p max_p : Z) (p add : list Z) (T knots : vec) (ps : list Z), (1 <= max_p)%Z ->
  length add = length p -> length T = (length p + 1)%nat -> p <> [] ->
  calc_new_struct min_p max_p p add T = Ok (knots, ps) ->
  (length knots + 1)%nat = length ps.
Proof. exact (struct_knots). Qed.
Print Assumptions C50_knots.

(** No segment has more than max_p points.  Missing: min_p > max_p (below). *)
Theorem C50_max_partial :
  forall (min_p max_p : Z) (p add : list Z) (T knots : vec) (ps : list Z), (1 <= max_p)%Z ->
  length add = length p -> length T = (length p + 1)%nat -> p <> [] ->
  calc_new_struct min_p max_p p add T = Ok (knots, ps) ->
  (min_p <= max_p)%Z -> Forall (fun q => (q <= max_p)%Z) ps.
Proof. exact (struct_max). Qed.
Print Assumptions C50_max_partial.

(** There are at least as many points as asked. *)
Theorem C50_total :
  forall (min_p max_p : Z) (p add : list Z) (T knots : vec) (ps : list Z), (1 <= max_p)%Z ->
  length add = length p -> length T = (length p + 1)%nat -> p <> [] ->
  calc_new_struct min_p max_p p add T = Ok (knots, ps) ->
  (total p + total add <= total ps)%Z.
Proof. exact (struct_total). Qed.
Print Assumptions C50_total.

(** The old ends of segments are ends of segments. *)
Theorem C50_kept :
  forall (min_p max_p : Z) (p add : list Z) (T knots : vec) (ps : list Z), (1 <= max_p)%Z ->
  length add = length p -> length T = (length p + 1)%nat -> p <> [] ->
  calc_new_struct min_p max_p p add T = Ok (knots, ps) ->
  forall t, In t T -> In t (vnth T 0 :: knots ++ [last T 0]).
Proof. exact (struct_kept). Qed.
Print Assumptions C50_kept.

(** The knots increase, and are inside the horizon. *)
Theorem C50_increasing :
  forall (min_p max_p : Z) (p add : list Z) (T knots : vec) (ps : list Z), (1 <= max_p)%Z ->
  length add = length p -> length T = (length p + 1)%nat -> p <> [] ->
  calc_new_struct min_p max_p p add T = Ok (knots, ps) ->
  increasing T -> increasing (vnth T 0 :: knots ++ [last T 0]).
Proof. exact (struct_increasing). Qed.
Print Assumptions C50_increasing.

(** Numbers to add for other segments are rejected. *)
Theorem C50_shapes :
  forall min_p max_p p add T, length add <> length p -> calc_new_struct min_p max_p p add T = Err AssertionError.
Proof. exact (struct_shape_error). Qed.
Print Assumptions C50_shapes.

Example C50_example :
  exists knots, calc_new_struct 3 25 [10; 24]%Z [2; 30]%Z [0; 1; 4] = Ok (knots, [12; 18; 18; 18]%Z) /\ knots = [1; 2; 3].
Proof. exact (struct_example). Qed.

(** With min_p above max_p the segments have more than max_p points. *)
Theorem C50_bounds_refuted :
  exists knots, calc_new_struct 30 25 [26]%Z [0]%Z [0; 1] = Ok (knots, [30; 30]%Z).
Proof. exact (struct_bounds_refuted). Qed.
Print Assumptions C50_bounds_refuted.

(** Segments that are not divided may have less than min_p points ... *)
Theorem C50_min_refuted :
  calc_new_struct 3 25 [2; 40]%Z [0; 0]%Z [0; 1; 2] = Ok ([1; 1 + INR 1 * ((2 - 1) / INR 2)], [2; 20; 20]%Z).
Proof. exact (struct_min_refuted). Qed.
Print Assumptions C50_min_refuted.

(** ... or a negative number of them, ... *)
Theorem C50_negative_refuted :
  calc_new_struct 3 25 [3; 10]%Z [-4; 1]%Z [0; 1; 2] = Ok ([1], [-1; 11]%Z).
Proof. exact (struct_negative_refuted). Qed.
Print Assumptions C50_negative_refuted.

(** add_points: the least number of points that divides the error enough, if each point divides it by the number of points. *)
Theorem C50_added :
  forall undef epsilon m_err p, 0 < epsilon -> 0 < m_err -> (2 <= p)%Z ->
  let a := add_point undef epsilon m_err p in
  powerRZ (IZR p) (a - 1) * epsilon < m_err <= powerRZ (IZR p) a * epsilon.
Proof. exact (add_point_ok). Qed.
Print Assumptions C50_added.

(** ... which add_points does ask for, when the error is small. *)
Theorem C50_added_refuted :
  forall undef epsilon, 0 < epsilon -> add_point undef epsilon (epsilon / 81) 3 = (-4)%Z.
Proof. exact (add_point_refuted). Qed.
Print Assumptions C50_added_refuted.

(** ** C51: the loop *)

(** Whatever the solver does, the attempts are those of [history]: at most max_iter of them, each with the structure that follows from the one before, going on exactly while they fail or the error is too large and there are points left.  What is returned are the results of the solved attempts.  Missing: the failed attempts are not returned. *)
Theorem C51_history_partial :
  forall undef (result : Type) (problem : nat -> Z -> vec -> list Z -> Res result) (res_t_knot_ext : result -> vec)
    (res_point_structure : result -> list Z) (errors : result -> Res vec) (min_p max_p max_coll_points : Z) (epsilon : R) silent
    max_iter initial_t_knots initial_point_structure run tr,
  adaptive_refinement_system undef problem res_t_knot_ext res_point_structure errors min_p max_p max_coll_points epsilon silent
    max_iter initial_t_knots initial_point_structure = Ok (run, tr) ->
  run = results tr /\
  history undef problem res_t_knot_ext res_point_structure errors min_p max_p max_coll_points epsilon max_iter 0
    (match initial_t_knots with None => [] | Some t => t end) initial_point_structure tr /\
  ((0 < max_iter)%nat -> tr <> []).
Proof. exact (fun undef result problem a b c d e f g silent n t p run tr => refine_history undef problem a b c d e f g silent n 0 _ p [] run tr). Qed.
Print Assumptions C51_history_partial.

(** If the solver raises nothing but RuntimeError, and its results have the structure asked for, the loop returns. *)
Theorem C51_returns :
  forall undef (result : Type) (problem : nat -> Z -> vec -> list Z -> Res result) (res_t_knot_ext : result -> vec)
    (res_point_structure : result -> list Z) (errors : result -> Res vec) (min_p max_p max_coll_points : Z) (epsilon : R) k, (1 <= max_p)%Z ->
  (forall i N knots p e, problem i N knots p = Err e -> e = RuntimeError) ->
  (forall i knots p r, p <> [] -> problem i (total p) knots p = Ok r ->
     length (res_t_knot_ext r) = (length p + 1)%nat /\ length (res_point_structure r) = length p /\
     exists er, errors r = Ok er /\ length er = length p) ->
  forall iter knots p run0, p <> [] ->
  exists x, refine undef problem res_t_knot_ext res_point_structure errors min_p max_p max_coll_points epsilon true k iter knots p run0 = Ok x.
Proof. exact (@refine_returns). Qed.
Print Assumptions C51_returns.

(** Other exceptions reach the caller. *)
Theorem C51_raises :
  forall undef (result : Type) (problem : nat -> Z -> vec -> list Z -> Res result) (res_t_knot_ext : result -> vec)
    (res_point_structure : result -> list Z) (errors : result -> Res vec) (min_p max_p max_coll_points : Z) (epsilon : R) k iter knots p run0 e, problem iter (total p) knots p = Err e -> e <> RuntimeError ->
  refine undef problem res_t_knot_ext res_point_structure errors min_p max_p max_coll_points epsilon true (S k) iter knots p run0 = Err e.
Proof. exact (@refine_raises). Qed.
Print Assumptions C51_raises.

(** A failure, a result with a large error and one with a small error. *)
Example C51_example :
  forall undef,
  adaptive_refinement_system undef toy_problem toy_knots toy_p toy_errors 3 25 500 1 true 100 None [10%Z] =
  Ok ([([], [11%Z]); ([], [13%Z])],
      [Failed [] [10%Z]; Solved [] [11%Z] ([], [11%Z]) [121]; Solved [] [13%Z] ([], [13%Z]) [/2]]).
Proof. exact (toy_run). Qed.

(** By default (silent=False) no refinement runs: the first message uses the function time as a module. *)
Theorem C51_not_silent_refuted :
  forall undef (result : Type) (problem : nat -> Z -> vec -> list Z -> Res result) (res_t_knot_ext : result -> vec)
    (res_point_structure : result -> list Z) (errors : result -> Res vec) (min_p max_p max_coll_points : Z) (epsilon : R) k iter knots p run0,
  refine undef problem res_t_knot_ext res_point_structure errors min_p max_p max_coll_points epsilon false (S k) iter knots p run0 = Err AttributeError.
Proof. exact (@refine_verbose). Qed.
Print Assumptions C51_not_silent_refuted.

(** If all attempts fail, the log is empty; and each of them has one more point in each segment, without limit. *)
Theorem C51_failed_refuted :
  forall undef (result : Type) (problem : nat -> Z -> vec -> list Z -> Res result) (res_t_knot_ext : result -> vec)
    (res_point_structure : result -> list Z) (errors : result -> Res vec) (min_p max_p max_coll_points : Z) (epsilon : R) k,
  (forall i N knots p, problem i N knots p = Err RuntimeError) ->
  forall iter knots p run0, exists tr,
  refine undef problem res_t_knot_ext res_point_structure errors min_p max_p max_coll_points epsilon true k iter knots p run0 = Ok (run0, tr) /\
  length tr = k /\ forall i d, (i < k)%nat -> nth i tr d = Failed knots (map (Z.add (Z.of_nat i)) p).
Proof. exact (@refine_fails). Qed.
Print Assumptions C51_failed_refuted.

(** A result may have more than max_coll_points points: here 13 and not 5. *)
Theorem C51_limit_refuted :
  forall undef, exists p r,
  adaptive_refinement_system undef toy_problem toy_knots toy_p toy_errors 3 25 5 1 true 100 None [12%Z] = Ok ([r], [Failed [] [12%Z]; Solved [] p r [/2]]) /\
  total p = 13%Z.
Proof. exact (toy_limit_refuted). Qed.
Print Assumptions C51_limit_refuted.

(** ** C52: errors of each segment *)

(** Cutting an array made of blocks at their lengths gives the blocks. *)
Theorem C52_slices :
  forall A (bs : list (list A)) pre, slices (map (@length A) bs) (length pre) (pre ++ concat bs) = bs.
Proof. exact (@slices_concat). Qed.
Print Assumptions C52_slices.

(** For a result whose segments are the motions Ps (C54 says which are): one block of errors for each segment, with the error of that segment's motion at each of its test points, and the maxima of each.  Missing: results that C54 does not cover. *)
Theorem C52_motions_partial :
  forall rr, real_roots_ok rr -> forall (lg : nat -> vec * vec) (u_other : string -> R -> Res vec) (hermite : list R -> list vec -> list vec -> R -> vec)
    (r : ph_result) (ns : list nat) (F : vec -> vec -> vec) (nq : nat) (Ps Us : list (list (list R))),
  length ns = h_n_segments r -> length (h_t_knot_ext r) = (h_n_segments r + 1)%nat -> In (h_scheme r) all_schemes ->
  Forall (enough_points (h_scheme r)) ns -> (1 <= nq)%nat -> (forall x u, (nq <= length (F x u))%nat) ->
  (forall s, (s < length ns)%nat -> length (nth s Ps []) = nq) ->
  covers (h_t_knot_ext r) (fun n g => interpolation_ph rr lg u_other hermite r 2 2 None None n g) (motion_sample 2 Ps Us) ->
  exists pts errs m, analyze_res_err rr lg u_other hermite r ns F = Ok (pts, errs) /\
    test_points_are rr (h_scheme r) (h_t_knot_ext r) ns pts /\
    blocks_are ns pts (fun s t => rate_n_at 2 (nth s Ps []) t -v lastn nq (F (full_state 2 (nth s Ps []) t) (state_at (nth s Us []) t))) errs /\
    max_err rr lg u_other hermite r pts errs = Ok m /\
    maxima_are ns pts (fun s t => state_at (nth s Ps []) t) errs m.
Proof. exact (motion_segment_errors). Qed.
Print Assumptions C52_motions_partial.

(** The same for polynomials of the whole state (pseudospectral mode). *)
Theorem C52_states_partial :
  forall rr, real_roots_ok rr -> forall (lg : nat -> vec * vec) (u_other : string -> R -> Res vec) (hermite : list R -> list vec -> list vec -> R -> vec)
    (r : ph_result) (ns : list nat) (F : vec -> vec -> vec) (nq : nat) (Ps Us : list (list (list R))),
  length ns = h_n_segments r -> length (h_t_knot_ext r) = (h_n_segments r + 1)%nat -> In (h_scheme r) all_schemes ->
  Forall (enough_points (h_scheme r)) ns -> (1 <= nq)%nat -> (forall x u, (nq <= length (F x u))%nat) ->
  (forall s, (s < length ns)%nat -> length (nth s Ps []) = (2 * nq)%nat) ->
  covers (h_t_knot_ext r) (fun n g => interpolation_ph rr lg u_other hermite r 2 2 None None n g) (state_sample nq Ps Us) ->
  exists pts errs m, analyze_res_err rr lg u_other hermite r ns F = Ok (pts, errs) /\
    test_points_are rr (h_scheme r) (h_t_knot_ext r) ns pts /\
    blocks_are ns pts (fun s t => firstn nq (rate_n_at 2 (nth s Ps []) t) -v
       lastn nq (F (firstn nq (state_at (nth s Ps []) t) ++ firstn nq (rate_at (nth s Ps []) t)) (state_at (nth s Us []) t))) errs /\
    max_err rr lg u_other hermite r pts errs = Ok m /\
    maxima_are ns pts (fun s t => firstn nq (state_at (nth s Ps []) t)) errs m.
Proof. exact (state_segment_errors). Qed.
Print Assumptions C52_states_partial.

(** The mass with a constant force has no errors. *)
Example C52_example :
  forall rr, real_roots_ok rr -> forall (lg : nat -> vec * vec) (u_other : string -> R -> Res vec) (hermite : list R -> list vec -> list vec -> R -> vec) s,
  In s bt_schemes -> exists t r pts errs,
  ph_t_arr rr (mass_problem Ph_td s) [1] [2; 3]%nat = Ok t /\
  saved rr (mass_problem Ph_td s) [1] [2; 3]%nat (mass_motion rr [2; 3]%nat t) = Ok r /\
  analyze_res_err rr lg u_other hermite r [2; 3]%nat (fun x u => [vnth x 1; vnth u 0]) = Ok (pts, errs) /\
  test_points_are rr s [0; 1; 3] [2; 3]%nat pts /\
  errs = [[[0]; [0]; [0]]; [[0]; [0]; [0]; [0]]] /\
  max_err rr lg u_other hermite r pts errs = Ok [0; 0].
Proof. exact (mass_segment_errors). Qed.

(** ** C70: accumulated errors of a refinement *)

(** The accumulated error is T / 2 times what analyze_ph_run gives, when the horizon is T: it is right only if T = 2. *)
Theorem C70_scaled_refuted :
  forall n err t0 T, (2 <= n)%nat -> 0 < T ->
  total_state_error (linspace t0 (t0 + T) n) err = map (Rmult (T / 2)) (run_error n err).
Proof. exact (run_error_scaled). Qed.
Print Assumptions C70_scaled_refuted.

Example C70_example :
  run_error 3 [[1]; [1]; [1]] = [2] /\ total_state_error (linspace 0 1 3) [[1]; [1]; [1]] = [1].
Proof. exact (run_error_example). Qed.
