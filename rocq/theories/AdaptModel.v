(** Model of chords/adaptive.py: test points, errors of each segment, points to
    add, new structure and the refinement loop.  Numbers of points are integers
    (Z).  What is printed is left out, except what can fail. *)
From Coq Require Import String ZArith.
From Verif Require Import Prelude Poly Mat PwModel PwInterpModel PsModel UtilModel BuTdModel PhModel AnalysisModel.
Open Scope R_scope.
Open Scope vec_scope.
Open Scope list_scope.

(** numpy.ceil(a / b) of integers, b > 0, without rounding errors *)
Definition ceil_div (a b : Z) : Z := (- ((- a) / b))%Z.
(** numpy.ceil *)
Definition rceil (x : R) : Z := (1 - up (- x))%Z.
Definition zsum (l : list Z) : Z := fold_right Z.add 0%Z l.

(** ** New structure *)
(** adaptive.py:113-134: the loop of [calc_new_struct]; [ns] is n_p_str from
    segment seg_ii on and [t] is t_knot_ext from there on.  max_p is at least
    1. *)
Fixpoint split_segments (min_p max_p : Z) (ns : list Z) (t : vec) : Res (vec * list Z) :=
  match ns with
  | [] => Ok ([], [])
  | new_n :: ns' =>
      match t with
      | min_t :: t' =>
          match t' with
          | max_t :: _ =>
              let '(ks, ps) :=
                if (new_n <=? max_p)%Z then ([max_t], [new_n])
                else
                  let div_n := ceil_div new_n max_p in
                  let new_n_each := ceil_div new_n div_n in
                  let new_n_each := Z.max new_n_each min_p in
                  (skipn 1 (linspace min_t max_t (Z.to_nat div_n + 1)), repeat new_n_each (Z.to_nat div_n)) in
              do (ks', ps') <- split_segments min_p max_p ns' t';
              Ok (ks ++ ks', ps ++ ps')
          | [] => Err IndexError
          end
      | [] => Err IndexError
      end
  end.
(** adaptive.py:108-136 [calc_new_struct]: the new t_knots and
    point_structure. *)
Definition calc_new_struct (min_p max_p : Z) (p_str add_p : list Z) (t_knot_ext : vec) : Res (vec * list Z) :=
  if negb (length p_str =? length add_p)%nat then Err AssertionError
  else
    do t0 <- pyget t_knot_ext 0%Z;
    do (ks, ps) <- split_segments min_p max_p (map2 Z.add p_str add_p) t_knot_ext;
    Ok (butlastn 1 ks, ps).

(** ** Points to add *)
(** adaptive.py:102-105 [add_points], util.py:580-583 [log_base]: for one
    segment.  The logarithms of numbers that are not positive, and divisions
    by log(1), give infinities or NaNs, whose conversion to an integer
    [undef] depends on the platform. *)
Section Add.
Variable undef : R -> Z -> Z.
Definition log_base (x base : R) : R := ln x / ln base.
Definition add_point (epsilon m_err : R) (p : Z) : Z :=
  if Rlt_dec 0 (m_err / epsilon)
  then if (2 <=? p)%Z then rceil (log_base (m_err / epsilon) (IZR p)) else undef m_err p
  else undef m_err p.
Definition add_points (epsilon : R) (m_err : vec) (p_str : list Z) : list Z :=
  map2 (add_point epsilon) m_err p_str.

(** ** The loop *)
(** adaptive.py:139-208 [adaptive_refinement_system].  [result] is what
    [problem] returns, with its "t_knot_ext" and "point_structure"; [errors]
    is analyze_res_err followed by max_err.  [problem] also gets the number of
    the iteration: a solver may behave differently each time.  The second
    component of the result is not in the code: it lists the attempts. *)
Context {result : Type}.
Variable problem : nat -> Z -> vec -> list Z -> Res result.
Variable res_t_knot_ext : result -> vec.
Variable res_point_structure : result -> list Z.
Variable errors : result -> Res vec.
Inductive attempt := Failed (knots : vec) (p : list Z) | Solved (knots : vec) (p : list Z) (res : result) (max_err_rel : vec).
Definition att_knots (a : attempt) : vec := match a with Failed k _ | Solved k _ _ _ => k end.
Definition att_p (a : attempt) : list Z := match a with Failed _ p | Solved _ p _ _ => p end.

Fixpoint refine (min_p max_p max_coll_points : Z) (epsilon : R) (silent : bool)
  (k iter : nat) (t_knots : vec) (point_structure : list Z) (ph_run : list result) : Res (list result * list attempt) :=
  match k with
  | O => Ok (ph_run, [])
  | S k' =>
      let N := zsum point_structure in
      if negb silent then Err AttributeError      (* time.strftime: time is a function *)
      else
        match problem iter N t_knots point_structure with
        | Err RuntimeError =>
            do (run, tr) <- refine min_p max_p max_coll_points epsilon silent k' (S iter) t_knots
                              (map (Z.add 1) point_structure) ph_run;
            Ok (run, Failed t_knots point_structure :: tr)
        | Err e => Err e
        | Ok _res =>
            do max_err_rel <- errors _res;
            let att := Solved t_knots point_structure _res max_err_rel in
            match max_err_rel with
            | [] => Err ValueError                 (* numpy.max of an empty array *)
            | _ =>
                if Rlt_dec (npmax max_err_rel) epsilon then Ok (ph_run ++ [_res], [att])
                else
                  let add_p := add_points epsilon max_err_rel (res_point_structure _res) in
                  do (t_knots', p') <- calc_new_struct min_p max_p point_structure add_p (res_t_knot_ext _res);
                  if (max_coll_points <? zsum p')%Z then Ok (ph_run ++ [_res], [att])
                  else
                    do (run, tr) <- refine min_p max_p max_coll_points epsilon silent k' (S iter) t_knots' p'
                                      (ph_run ++ [_res]);
                    Ok (run, att :: tr)
            end
        end
  end.
Definition adaptive_refinement_system (min_p max_p max_coll_points : Z) (epsilon : R) (silent : bool)
  (max_iter : nat) (initial_t_knots : option vec) (initial_point_structure : list Z) : Res (list result * list attempt) :=
  refine min_p max_p max_coll_points epsilon silent max_iter 0
    (match initial_t_knots with None => [] | Some t => t end) initial_point_structure [].
End Add.

(** ** Errors of each segment *)
Section Errors.
Variable real_roots : list R -> list R.
Variable leggauss : nat -> vec * vec.
Variable u_other : string -> R -> Res vec.
Variable hermite : list R -> list vec -> list vec -> R -> vec.

(** adaptive.py:27-40 [calc_test_point_arr]; [point_structure] is that of the
    result. *)
Definition calc_test_point_arr (r : ph_result) (point_structure : list nat) : Res (list vec) :=
  mapm (fun seg_ii =>
      do t0 <- pyget (h_t_knot_ext r) (Z.of_nat seg_ii);
      do t1 <- pyget (h_t_knot_ext r) (Z.of_nat (seg_ii + 1));
      do N <- pyget (map S point_structure) (Z.of_nat seg_ii);
      do taus <- coll_points real_roots N (h_scheme r) 2;
      Ok (tau_to_t_points taus t0 t1))
    (seq 0 (h_n_segments r)).

(** adaptive.py:61-66: consecutive slices. *)
Fixpoint slices {A} (lens : list nat) (arr_index : nat) (l : list A) : list (list A) :=
  match lens with
  | [] => []
  | int_len :: lens' => slice arr_index (arr_index + int_len) l :: slices lens' (arr_index + int_len) l
  end.
(** adaptive.py:43-71 [analyze_res_err] *)
Definition analyze_res_err (r : ph_result) (point_structure : list nat) (F : vec -> vec -> vec)
  : Res (list vec * list (list vec)) :=
  do test_points_arr <- calc_test_point_arr r point_structure;
  do (rows, _) <- interpolation_ph real_roots leggauss u_other hermite r 2 2 None None 0 (Some test_points_arr);
  do (_, errs) <- dynamic_errors_from_interp rows F "q" 2;
  Ok (test_points_arr, slices (firstn (h_n_segments r) (map S point_structure)) 0 (map e_dyn errs)).

(** numpy.max(numpy.abs(a)) of a 2-D array *)
Definition max_abs (m : mat) : Res R :=
  match concat m with [] => Err ValueError | _ => Ok (npmax (map Rabs (concat m))) end.
(** adaptive.py:74-99 [max_err] on the outcome of analyze_res_err *)
Definition max_err (r : ph_result) (test_points_arr : list vec) (err_list : list (list vec)) : Res vec :=
  do (_, segs) <- interpolation_ph real_roots leggauss u_other hermite r 2 2 None None 0 (Some test_points_arr);
  do q_list <- mapm (mapm (get (KQ 0 0))) segs;
  do q_list_max <- mapm max_abs q_list;
  do max_err_list <- mapm (fun seg_ii => do e <- pyget err_list (Z.of_nat seg_ii); max_abs e) (seq 0 (h_n_segments r));
  Ok (map2 (fun e q => e / (1 + q)) max_err_list q_list_max).
End Errors.

(** ** Accumulated errors *)
(** adaptive.py:211-248 [analyze_ph_run]: the accumulated error of one array of
    errors. *)
Definition run_error (n_interp : nat) (err : mat) : vec := total_state_error (linspace 0 2 n_interp) err.
