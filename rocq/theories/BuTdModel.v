(** Model of chords/bu_pseudospectral.py, chords/td_pseudospectral.py and of
    the bottom-up and top-down problem classes of chords/opti.py.  Conventions
    as in PsModel.v and UtilModel.v. *)
From Coq Require Import String.
From Verif Require Import Prelude Poly Mat SplineModel PwModel PwInterpModel PsModel UtilModel.
Open Scope R_scope.
Open Scope vec_scope.
Open Scope list_scope.

Section BuTd.
Variable real_roots : list R -> list R.
Variable leggauss : nat -> vec * vec.

(** [scheme[3:] if scheme[:3] == pre else scheme], for a prefix of length 3. *)
Definition strip (pre scheme : string) : string :=
  if (String.substring 0 3 scheme =? pre)%string
  then String.substring 3 (String.length scheme - 3) scheme else scheme.

(** ** Points *)
(** bu_pseudospectral.py:68-127 [BU_coll_points] *)
Definition BU_coll_points (N : nat) (scheme : string) (order : nat) : Res vec :=
  if (scheme =? "LG")%string then Ok (LG real_roots N)
  else if (scheme =? "LGR")%string then Ok (LGR real_roots N)
  else if (scheme =? "LGR_inv")%string then Ok (neg_rev (LGR real_roots N))
  else if mem scheme ["LGL"%string] then Ok (LGL real_roots N)
  else if (scheme =? "JG")%string then Ok (JG real_roots N order)
  else if (scheme =? "JGR")%string then Ok (JGR real_roots N order)
  else if (scheme =? "JGR_inv")%string then Ok (JGR_inv real_roots N order)
  else if (scheme =? "JGL")%string then Ok (JGL real_roots N order)
  else if (scheme =? "CG")%string then Ok (CG N)
  else if (scheme =? "CGR")%string then Ok (CGR N)
  else if (scheme =? "CGR_inv")%string then Ok (neg_rev (CGR N))
  else if (scheme =? "CGL")%string then Ok (CGL N)
  else Err ValueError.

(** bu_pseudospectral.py:130-187 [BU_construction_points] (_other_schemes is
    empty) *)
Definition BU_construction_points (N : nat) (scheme : string) (order : nat) : Res vec :=
  do coll_p <- BU_coll_points N scheme order;
  if mem scheme gauss_like then Ok (coll_p ++ [1])
  else if mem scheme radau_like then Ok (skipn 1 coll_p ++ [1])
  else if mem scheme radau_inv then Ok coll_p
  else if mem scheme lobato_like then Ok (skipn 1 coll_p)
  else Err ValueError.

(** td_pseudospectral.py:51-104 [TD_construction_points] *)
Definition TD_construction_points (N : nat) (scheme : string) (order : nat) : Res vec :=
  do coll_p <- BU_coll_points N scheme order;
  if mem scheme gauss_like then Ok ([-1] ++ coll_p ++ [1])
  else if mem scheme radau_like then Ok (coll_p ++ [1])
  else if mem scheme radau_inv then Ok ([-1] ++ coll_p)
  else if mem scheme lobato_like then Ok coll_p
  else Err ValueError.

(** ** Bottom-up matrices *)
(** bu_pseudospectral.py:191-221 [BU_unit_Lag_pol], at one tau *)
Definition BU_unit_Lag_pol (N : nat) (scheme : string) (n order : nat) : Res (R -> R) :=
  do x <- BU_coll_points N scheme order;
  if (N <=? n)%nat then Err IndexError
  else Ok (bary_poly x (map (fun i => if (i =? n)%nat then 1 else 0) (seq 0 N))).
(** bu_pseudospectral.py:225-255 [BU_unit_Lag_pol_t], at one time *)
Definition BU_unit_Lag_pol_t (N : nat) (scheme : string) (n : nat) (t0 tf : R) (order : nat)
  : Res (R -> R) :=
  do L_tau <- BU_unit_Lag_pol N scheme n order; Ok (tau_to_t_function L_tau t0 tf).

(** bu_pseudospectral.py:259-320 [_Lag_integ] *)
Definition Lag_integ (N_coll n_lag_pol : nat) (scheme : string)
  (deriv_order t_constr_index scheme_order : nat) : Res R :=
  do constr_points <- BU_construction_points N_coll scheme scheme_order;
  if (length constr_points <=? t_constr_index)%nat then Err IndexError
  else
    let tf := vnth constr_points t_constr_index in
    do lag_pol <- BU_unit_Lag_pol N_coll scheme n_lag_pol scheme_order;
    let integration_order := (scheme_order - deriv_order)%nat in
    Ok (gauss_rep_integral leggauss lag_pol (-1) tf (N_coll - 1) integration_order).

(** bu_pseudospectral.py:324-337 [Integration_Polynomial_Matrix]: a row per
    construction point.  For N_coll = 1 the Python function returns a 1-D
    array (the integrated polynomial is scalar). *)
Definition Integration_Polynomial_Matrix (N_coll deriv_order : nat) (scheme : string)
  (scheme_order : nat) : Res mat :=
  do constr_points <- BU_construction_points N_coll scheme scheme_order;
  do int_pol <- Lag_integ_2d real_roots leggauss N_coll scheme (scheme_order - deriv_order) scheme_order;
  Ok (map int_pol constr_points).

(** bu_pseudospectral.py:340-376 [Integration_Matrix].  [zeros([n_t, M + N])],
    column P set to 1, columns P+1..M-1 to t^i / i!, columns M.. to the
    integrated polynomials.  For N_coll = 1 the last assignment puts a 1-D
    array of n_t items in n_t rows of one column, a ValueError unless
    n_t = 1. *)
Definition Integration_Matrix (N_coll : nat) (scheme : string) (deriv_order : nat) (h : R)
  (scheme_order : nat) : Res mat :=
  let M := scheme_order in let P := deriv_order in
  if negb (P <? M)%nat then Err AssertionError
  else
    do constr_points <- BU_construction_points N_coll scheme scheme_order;
    let n_t := length constr_points in
    do _M <- Integration_Polynomial_Matrix N_coll deriv_order scheme scheme_order;
    if (N_coll =? 1)%nat && negb (n_t =? 1)%nat then Err ValueError
    else
      Ok (map2 (fun tau r =>
            let constr_t := (1 + tau) * h / 2 in
            repeat 0 P ++ [1]
            ++ map (fun ii => constr_t ^ ii / INR (fact ii)) (seq 1 (M - P - 1))
            ++ (h / 2) ^ (M - P) *v r)
          constr_points _M).

(** bu_pseudospectral.py:379-391 [Extreme_Matrix].  With N_coll = 0 the loop
    does not run. *)
Definition Extreme_Matrix (N_coll : nat) (scheme point : string) (scheme_order : nat) : Res mat :=
  do r <- mapm (fun ii =>
        do pol <- BU_unit_Lag_pol N_coll scheme ii scheme_order;
        if (point =? "start")%string then Ok (pol (-1))
        else if (point =? "end")%string then Ok (pol 1)
        else Err ValueError) (seq 0 N_coll);
  Ok [r].

(** bu_pseudospectral.py:412-424: the loop that integrates the polynomial of
    the highest derivative; [left] integrations remain, [polys] is the list
    of polynomials so far, the last one first (the returned order). *)
Fixpoint integrate_polys (n_col : nat) (t0 tf : R) (q_and_ders : list vec) (left ii : nat)
  (polys : list (R -> vec)) : Res (list (R -> vec)) :=
  match left with
  | O => Ok polys
  | S left' =>
      do new <- poly_integral_2d leggauss (hd (fun _ => []) polys) (n_col - 1 + ii) t0 tf
                  (nth (length q_and_ders - ii - 1) q_and_ders []);
      integrate_polys n_col t0 tf q_and_ders left' (S ii) (new :: polys)
  end.
(** bu_pseudospectral.py:394-427 [Polynomial_interpolations_BU]: the u
    polynomial and the list q, v, ..., highest derivative, as functions of
    time.  [N_coll] is not used by the code. *)
Definition Polynomial_interpolations_BU (xx_dot : mat) (x_0 : vec) (uu : mat) (scheme : string)
  (problem_order : nat) (t0 tf : R) (scheme_order : nat)
  : Res ((R -> vec) * list (R -> vec)) :=
  let scheme := strip "BU_" scheme in
  let n_q := (length x_0 / problem_order)%nat in
  let highest_der := mlastcols n_q xx_dot in
  do coll_index <- get_coll_indices scheme;
  let highest_der_col := take coll_index highest_der in
  let n_col := length highest_der_col in
  let q_and_ders := map (fun ii => slice (n_q * ii) (n_q * (ii + 1)) x_0) (seq 0 problem_order) in
  do coll_tau <- BU_coll_points n_col scheme scheme_order;
  let coll_pts := tau_to_t_points coll_tau t0 tf in
  let highest_der_poly := bary_poly_2d coll_pts highest_der_col in
  do polys <- integrate_polys n_col t0 tf q_and_ders problem_order 0 [highest_der_poly];
  Ok (bary_poly_2d coll_pts uu, polys).

(** "smooth" controls (bu_pseudospectral.py:553-557, td_pseudospectral.py:294-298):
    numpy.gradient with one list of points for the two dimensions of u is a
    TypeError. *)
Definition smooth_u (uu : mat) (scheme : string) (n_col scheme_order : nat) : Res vec :=
  do (tau_u, uu') <- extend_u_array real_roots uu scheme n_col scheme_order;
  Err TypeError.
(** bu_pseudospectral.py:430-582 [interpolations_BU_pseudospectral] with
    given_t_arr, at one time.  The scheme_order is not passed to
    Polynomial_interpolations_BU, which uses 2.  Result: x, x', u. *)
Definition interpolations_BU_pseudospectral (xx xx_dot uu : mat) (scheme : string)
  (interp_order : nat) (t0 tf : R) (scheme_order : nat) (u_interp x_interp : string) (t : R)
  : Res (vec * vec * vec) :=
  let scheme := strip "BU_" scheme in
  let x_0 := mrow 0 xx in
  let n_q := (length x_0 / interp_order)%nat in
  do coll_index <- get_coll_indices scheme;
  let n_col := length (take coll_index (mlastcols n_q xx_dot)) in
  do constr <- BU_construction_points n_col scheme scheme_order;
  let t_x := tau_to_t_points ([-1] ++ constr) t0 tf in
  do (u_pol, q_and_der_polys) <-
    (if mem "pol"%string [x_interp; u_interp]
     then Polynomial_interpolations_BU xx_dot x_0 uu scheme interp_order t0 tf 2
     else Ok ((fun _ => []), []));
  do u_arr <- (if (u_interp =? "pol")%string then Ok (u_pol t)
               else if (u_interp =? "lin")%string then
                 do (tau_u, uu') <- extend_u_array real_roots uu scheme n_col scheme_order;
                 interp_2d (tau_to_t_points tau_u t0 tf) uu' t
               else if (u_interp =? "smooth")%string then smooth_u uu scheme n_col scheme_order
               else Err NameError);
  if (x_interp =? "pol")%string then
    let q_and_der_arrs := flat_map (fun ii => (nth ii q_and_der_polys (fun _ => [])) t)
                            (seq 0 (interp_order + 1)) in
    Ok (butlastn n_q q_and_der_arrs, skipn n_q q_and_der_arrs, u_arr)
  else if (x_interp =? "lin")%string then
    do x_arr <- interp_2d t_x xx t;
    do x_dot_arr <- interp_2d t_x xx_dot t;
    Ok (x_arr, x_dot_arr, u_arr)
  else if (x_interp =? "Hermite")%string then
    do herm <- hermite t_x xx xx_dot;
    Ok (sp_eval herm t, sp_eval (sp_derivative herm) t, u_arr)
  else Err NameError.

(** bu_pseudospectral.py:585-608 [_v_sum] and 611-636 [_matrix_D_bary]: the
    module has its own copies, on given points. *)
Definition v_sum_bu (t_arr : vec) (i : nat) : R :=
  let n := length t_arr in
  let prod_coef := pop_at i (seq 0 n) in
  1 / fold_right Rmult 1 (map (fun jj => vnth t_arr i - vnth t_arr jj) prod_coef).
Definition matrix_D_bary_bu (t_arr : vec) : mat :=
  let N := length t_arr in
  D_diag (D_offdiag N t_arr (map (v_sum_bu t_arr) (seq 0 N))).

(** bu_pseudospectral.py:734-738: the derivatives of the highest derivative. *)
Fixpoint derive_highest (D : mat) (t_x : vec) (highest_der : mat) (n : nat) : list (R -> vec) :=
  match n with
  | O => []
  | S n' => let h' := mmul D highest_der in
            bary_poly_2d t_x h' :: derive_highest D t_x h' n'
  end.
(** bu_pseudospectral.py:639-772 [interpolations_deriv_BU_pseudospectral], at
    one time. *)
Definition interpolations_deriv_BU_pseudospectral (xx xx_dot : mat) (scheme : string)
  (problem_order deriv_order : nat) (t0 tf : R) (scheme_order : nat) (x_interp : string) (t : R)
  : Res vec :=
  let scheme := strip "BU_" scheme in
  let x_0 := mrow 0 xx in
  let n_q := (length x_0 / problem_order)%nat in
  let highest_der := mlastcols n_q xx_dot in
  do coll_index <- get_coll_indices scheme;
  let n_col := length (take coll_index highest_der) in
  do constr <- BU_construction_points n_col scheme scheme_order;
  let t_x := tau_to_t_points ([-1] ++ constr) t0 tf in
  if (x_interp =? "pol")%string then
    let D := matrix_D_bary_bu t_x in
    do (_, polys) <- Polynomial_interpolations_BU xx_dot x_0 [] scheme problem_order t0 tf 2;
    let polys := polys ++ derive_highest D t_x highest_der (deriv_order - 1) in
    Ok (flat_map (fun ii => (nth (ii + deriv_order) polys (fun _ => [])) t) (seq 0 problem_order))
  else if (x_interp =? "lin")%string then
    match deriv_order with
    | O => interp_2d t_x xx t
    | S O => find_der_polyline t t_x xx
    | _ => Ok (repeat 0 (length x_0))
    end
  else if (x_interp =? "Hermite")%string then
    do herm <- hermite t_x xx xx_dot;
    Ok (sp_eval (Nat.iter deriv_order sp_derivative herm) t)
  else Err NameError.

(** [l[i]] *)
Definition item {A} (l : list A) (i : nat) : Res A :=
  match nth_error l i with Some v => Ok v | None => Err IndexError end.
(** [a - b] for two 2-D numpy arrays with as many rows, one row of each: a
    single column is repeated; other widths that differ raise ValueError. *)
Definition row_sub (a b : vec) : Res vec :=
  if (length a =? length b)%nat then Ok (a -v b)
  else if (length b =? 1)%nat then Ok (map (fun x => x - vnth b 0) a)
  else if (length a =? 1)%nat then Ok (map (fun y => vnth a 0 - y) b)
  else Err ValueError.
(** [target[:, i : i + n] = v], one row: what is written. *)
Definition row_assign (n : nat) (v : vec) : Res vec :=
  if (length v =? n)%nat then Ok v
  else if (length v =? 1)%nat then Ok (repeat (vnth v 0) n)
  else Err ValueError.
(** bu_pseudospectral.py:923-925 and td_pseudospectral.py:636-638: q and its
    derivatives, one after the other. *)
Definition q_and_d_interp (n_q problem_order : nat) (x_and_derivs : list (list vec)) : Res vec :=
  do parts <- mapm (fun jj =>
      do divs <- item x_and_derivs jj;
      do q <- item divs 0;
      row_assign n_q q) (seq 0 problem_order);
  Ok (concat parts).
(** bu_pseudospectral.py:941-951 and td_pseudospectral.py:651-661: [f] is the
    row of f_interp, appended to x_and_derivs[0]. *)
Definition dyn_errs (problem_order : nat) (x_and_derivs : list (list vec)) (f : vec)
  : Res (list (list vec)) :=
  let x0 := nth 0 x_and_derivs [] ++ [f] in
  mapm (fun jj => mapm (fun ii =>
      do divs <- item x_and_derivs (jj + 1);
      do a <- item divs ii;
      do b <- item x0 (ii + jj + 1);
      row_sub a b) (seq 0 (problem_order - jj))) (seq 0 problem_order).
(** bu_pseudospectral.py:927-940 and td_pseudospectral.py:640-650: the rows
    given to F.  In mode "x" the code takes the rows of [x_interp], the name of
    the interpolation, instead of those of the interpolated states: F is called
    with a character ([F_char]), and there are only as many as letters in the
    name.  [rows]: q and its derivatives, and the controls, at each time. *)
Definition f_interp (F : vec -> vec -> vec) (F_char : Ascii.ascii -> vec -> Res vec) (n_q : nat)
  (mode x_interp : string) (rows : list (vec * vec)) : Res (list vec) :=
  if (mode =? "q")%string then Ok (map (fun r => lastn n_q (F (fst r) (snd r))) rows)
  else if (mode =? "x")%string then
    mapm (fun ii => match String.get ii x_interp with
                    | Some c => do v <- F_char c (snd (nth ii rows ([], []))); Ok (lastn n_q v)
                    | None => Err IndexError
                    end) (seq 0 (length rows))
  else Err ValueError.

(** bu_pseudospectral.py:873-925: the interpolations used by [dynamic_error_BU]
    at one time, with interp_order=None.  The derivatives are cut in
    [scheme_order] parts, and the states in [problem_order] parts.  Result:
    x_and_derivs, q and its derivatives, u. *)
Definition dynamic_error_BU_interp (x_arr x_dot_arr u_arr : mat) (scheme : string)
  (t0 tf : R) (problem_order scheme_order : nat) (u_interp x_interp : string) (t : R)
  : Res (list (list vec) * (vec * vec)) :=
  let scheme := strip "BU_" scheme in
  let n_q := (length (mrow 0 x_arr) / problem_order)%nat in
  do (x, x_dot, u) <- interpolations_BU_pseudospectral x_arr x_dot_arr u_arr scheme problem_order
                        t0 tf scheme_order u_interp x_interp t;
  do ders <- mapm (fun jj =>
        do xd <- interpolations_deriv_BU_pseudospectral x_arr x_dot_arr scheme problem_order jj
                   t0 tf scheme_order x_interp t;
        Ok (get_x_divisions xd scheme_order)) (seq 1 problem_order);
  let x_and_derivs := get_x_divisions x problem_order :: ders in
  do q_and_d <- q_and_d_interp n_q problem_order x_and_derivs;
  Ok (x_and_derivs, (q_and_d, u)).
(** bu_pseudospectral.py:775-951 [dynamic_error_BU]: the errors at each of the
    times of [t_arr] (equispaced in the code), two or more: with fewer the
    polynomials return arrays of another shape ([enough_times] of
    AnalysisModel).  [F] is the state derivative with the parameters fixed.  Item jj of the errors at a time is the list of errors
    of order jj + 1. *)
Definition dynamic_error_BU_arr (F : vec -> vec -> vec) (F_char : Ascii.ascii -> vec -> Res vec)
  (x_arr x_dot_arr u_arr : mat) (scheme : string)
  (t0 tf : R) (problem_order scheme_order : nat) (u_interp x_interp mode : string) (t_arr : vec)
  : Res (list (list (list vec))) :=
  let n_q := (length (mrow 0 x_arr) / problem_order)%nat in
  do rows <- mapm (dynamic_error_BU_interp x_arr x_dot_arr u_arr scheme t0 tf problem_order
                     scheme_order u_interp x_interp) t_arr;
  do fs <- f_interp F F_char n_q mode x_interp (map snd rows);
  mapm (fun r => dyn_errs problem_order (fst (fst r)) (snd r)) (combine rows fs).
(** The same at one time, mode "q". *)
Definition dynamic_error_BU (F : vec -> vec -> vec) (x_arr x_dot_arr u_arr : mat) (scheme : string)
  (t0 tf : R) (problem_order scheme_order : nat) (u_interp x_interp : string) (t : R)
  : Res (list (list vec)) :=
  let n_q := (length (mrow 0 x_arr) / problem_order)%nat in
  do (x_and_derivs, (q_and_d, u)) <- dynamic_error_BU_interp x_arr x_dot_arr u_arr scheme t0 tf
       problem_order scheme_order u_interp x_interp t;
  dyn_errs problem_order x_and_derivs (lastn n_q (F q_and_d u)).

(** ** Top-down *)
(** td_pseudospectral.py:107-110 [matrix_D_nu] *)
Definition matrix_D_nu (size : nat) : Res mat := matrix_D_bary real_roots size "LGL".
(** td_pseudospectral.py:113-120 [matrix_L] *)
Definition matrix_L (N : nat) (scheme : string) (order : nat) : Res mat :=
  do constr_points <- TD_construction_points N scheme order;
  do polynomial <- Lag_pol_2d real_roots (N + order) "LGL" 2;
  Ok (map polynomial constr_points).

(** td_pseudospectral.py:123-155 [Polynomial_interpolations_TD]: the u
    polynomial and the list q, v, ..., derivative of order N - n_coll. *)
Definition Polynomial_interpolations_TD (q_constr uu : mat) (t0 tf : R) (n_coll : nat)
  (scheme : string) (scheme_order : nat) : Res ((R -> vec) * list (R -> vec)) :=
  let scheme := strip "TD_" scheme in
  let N := length q_constr in
  let interp_order := (N - n_coll)%nat in
  let h := tf - t0 in
  do coll_tau <- BU_coll_points n_coll scheme scheme_order;
  let coll_pts := tau_to_t_points coll_tau t0 tf in
  let LGL_pts := tau_to_t_points (LGL real_roots N) t0 tf in
  do D_nu <- matrix_D_nu N;
  let polys := map (fun ii =>
      let coefs := mmul (mscale ((2 / h) ^ ii) (mpow D_nu ii)) q_constr in
      bary_poly_2d LGL_pts coefs) (seq 0 (interp_order + 1)) in
  Ok (bary_poly_2d coll_pts uu, polys).

(** td_pseudospectral.py:158-324 [interpolations_TD_pseudospectral] with
    given_t_arr, at one time. *)
Definition interpolations_TD_pseudospectral (q_constr xx xx_dot uu : mat) (scheme : string)
  (t0 tf : R) (scheme_order : nat) (u_interp x_interp : string) (t : R)
  : Res (vec * vec * vec) :=
  let scheme := strip "TD_" scheme in
  let n_coll := length uu in
  let N := length q_constr in
  let n_q := mwidth q_constr in
  let problem_order := (mwidth xx / n_q)%nat in
  if negb (N =? problem_order + n_coll)%nat then Err AssertionError
  else
    do constr <- TD_construction_points n_coll scheme scheme_order;
    let t_x := tau_to_t_points constr t0 tf in
    do (u_pol, q_and_der_polys) <-
      (if mem "pol"%string [x_interp; u_interp]
       then Polynomial_interpolations_TD q_constr uu t0 tf n_coll scheme scheme_order
       else Ok ((fun _ => []), []));
    do u_arr <- (if (u_interp =? "pol")%string then Ok (u_pol t)
                 else if (u_interp =? "lin")%string then
                   do (tau_u, uu') <- extend_u_array real_roots uu scheme n_coll scheme_order;
                   interp_2d (tau_to_t_points tau_u t0 tf) uu' t
                 else if (u_interp =? "smooth")%string then smooth_u uu scheme n_coll scheme_order
                 else Err NameError);
    if (x_interp =? "pol")%string then
      let q_and_der_arrs := flat_map (fun ii => (nth ii q_and_der_polys (fun _ => [])) t)
                              (seq 0 (problem_order + 1)) in
      Ok (butlastn n_q q_and_der_arrs, skipn n_q q_and_der_arrs, u_arr)
    else if (x_interp =? "lin")%string then
      do x_arr <- interp_2d t_x xx t;
      do x_dot_arr <- interp_2d t_x xx_dot t;
      Ok (x_arr, x_dot_arr, u_arr)
    else if (x_interp =? "Hermite")%string then
      do herm <- hermite t_x xx xx_dot;
      Ok (sp_eval herm t, sp_eval (sp_derivative herm) t, u_arr)
    else Err NameError.

(** td_pseudospectral.py:327-478 [interpolations_deriv_TD_pseudospectral], at
    one time.  For "lin" and deriv_order >= 2 the
    Python result is an array of zeros with the rows of xx; here one row. *)
Definition interpolations_deriv_TD_pseudospectral (q_constr xx xx_dot : mat) (scheme : string)
  (deriv_order : nat) (t0 tf : R) (n_coll scheme_order : nat) (x_interp : string) (t : R)
  : Res vec :=
  let scheme := strip "TD_" scheme in
  let N := length q_constr in
  let n_q := mwidth q_constr in
  let problem_order := (mwidth xx / n_q)%nat in
  if negb (N =? problem_order + n_coll)%nat then Err AssertionError
  else
    do constr <- TD_construction_points n_coll scheme scheme_order;
    let t_x := tau_to_t_points constr t0 tf in
    let LGL_pts := tau_to_t_points (LGL real_roots N) t0 tf in
    let h := tf - t0 in
    if (x_interp =? "pol")%string then
      do (_, polys) <- Polynomial_interpolations_TD q_constr [] t0 tf n_coll scheme scheme_order;
      do D_nu <- matrix_D_nu N;
      let polys := polys ++ map (fun jj =>
          let ii := (jj + problem_order + 1)%nat in
          bary_poly_2d LGL_pts (mmul (mscale ((2 / h) ^ ii) (mpow D_nu ii)) q_constr))
          (seq 0 (deriv_order - 1)) in
      Ok (flat_map (fun ii => (nth (ii + deriv_order) polys (fun _ => [])) t) (seq 0 problem_order))
    else if (x_interp =? "lin")%string then
      match deriv_order with
      | O => interp_2d t_x xx t
      | S O => find_der_polyline t t_x xx
      | _ => Ok (repeat 0 (mwidth xx))
      end
    else if (x_interp =? "Hermite")%string then
      do herm <- hermite t_x xx xx_dot;
      Ok (sp_eval (Nat.iter deriv_order sp_derivative herm) t)
    else Err NameError.

(** td_pseudospectral.py:586-638: the interpolations used by [dynamic_error_TD]. *)
Definition dynamic_error_TD_interp (q_constr xx xx_dot uu : mat) (scheme : string)
  (t0 tf : R) (problem_order scheme_order : nat) (u_interp x_interp : string) (t : R)
  : Res (list (list vec) * (vec * vec)) :=
  let scheme := strip "TD_" scheme in
  let n_q := (mwidth xx / problem_order)%nat in
  let n_coll := length uu in
  do (x, x_dot, u) <- interpolations_TD_pseudospectral q_constr xx xx_dot uu scheme t0 tf
                        scheme_order u_interp x_interp t;
  do ders <- mapm (fun jj =>
        do xd <- interpolations_deriv_TD_pseudospectral q_constr xx xx_dot scheme jj t0 tf n_coll
                   scheme_order x_interp t;
        Ok (get_x_divisions xd problem_order)) (seq 1 problem_order);
  let x_and_derivs := get_x_divisions x problem_order :: ders in
  do q_and_d <- q_and_d_interp n_q problem_order x_and_derivs;
  Ok (x_and_derivs, (q_and_d, u)).
(** td_pseudospectral.py:481-661 [dynamic_error_TD]: the errors at each of the
    times of [t_arr], two or more.  The derivatives of order 2 and more of "lin"
    have the rows of xx (line 465) and cannot be subtracted from arrays with
    another number of rows, except that one row is broadcast. *)
Definition dynamic_error_TD_arr (F : vec -> vec -> vec) (F_char : Ascii.ascii -> vec -> Res vec)
  (q_constr xx xx_dot uu : mat) (scheme : string)
  (t0 tf : R) (problem_order scheme_order : nat) (u_interp x_interp mode : string) (t_arr : vec)
  : Res (list (list (list vec))) :=
  let n_q := (mwidth xx / problem_order)%nat in
  do rows <- mapm (dynamic_error_TD_interp q_constr xx xx_dot uu scheme t0 tf problem_order
                     scheme_order u_interp x_interp) t_arr;
  do fs <- f_interp F F_char n_q mode x_interp (map snd rows);
  if (x_interp =? "lin")%string && (2 <=? problem_order)%nat &&
     negb (length xx =? length t_arr)%nat && negb (length xx =? 1)%nat
  then Err ValueError
  else mapm (fun r => dyn_errs problem_order (fst (fst r)) (snd r)) (combine rows fs).
(** The same at one time, mode "q". *)
Definition dynamic_error_TD (F : vec -> vec -> vec) (q_constr xx xx_dot uu : mat) (scheme : string)
  (t0 tf : R) (problem_order scheme_order : nat) (u_interp x_interp : string) (t : R)
  : Res (list (list vec)) :=
  let n_q := (mwidth xx / problem_order)%nat in
  do (x_and_derivs, (q_and_d, u)) <- dynamic_error_TD_interp q_constr xx xx_dot uu scheme t0 tf
       problem_order scheme_order u_interp x_interp t;
  dyn_errs problem_order x_and_derivs (lastn n_q (F q_and_d u)).

(** ** The problems (opti.py:1150-1497 and 1500-1833) *)
(** What [opti_setup] computes (opti.py:1189-1291, 1539-1641). *)
Record bt_setup := {
  bset_n_arr : nat; bset_tau : vec; bset_tau_col : vec; bset_coll : slice_idx }.
Definition bu_opti_setup (p : ps_problem) : Res bt_setup :=
  let scheme := ps_scheme p in
  do coll_index <- get_coll_indices scheme;
  do constr <- BU_construction_points (ps_n_coll p) scheme (ps_order p);
  do coll <- BU_coll_points (ps_n_coll p) scheme (ps_order p);
  Ok (Build_bt_setup (length constr + 1) ([-1] ++ constr) coll coll_index).
Definition td_opti_setup (p : ps_problem) : Res bt_setup :=
  let scheme := ps_scheme p in
  do coll_index <- get_coll_indices scheme;
  do constr <- TD_construction_points (ps_n_coll p) scheme (ps_order p);
  do coll <- BU_coll_points (ps_n_coll p) scheme (ps_order p);
  Ok (Build_bt_setup (length constr) constr coll coll_index).

(** opti.py:1261-1285, 1614-1638: u_s, u_e and u_like_x, the same in both
    classes (bu_pseudospectral's lists of schemes are those of the
    pseudospectral module). *)
Definition bt_u_s (p : ps_problem) (u : mat) : Res vec :=
  if mem (ps_scheme p) (radau_like ++ lobato_like) then Ok (mrow 0 u)
  else do f <- get_bary_extreme_f real_roots (ps_scheme p) (ps_n_coll p) "u" "start" (ps_order p);
       run_extreme_cols f u.
Definition bt_u_e (p : ps_problem) (u : mat) : Res vec :=
  if mem (ps_scheme p) (radau_inv ++ lobato_like) then Ok (mrow (length u - 1) u)
  else do f <- get_bary_extreme_f real_roots (ps_scheme p) (ps_n_coll p) "u" "end" (ps_order p);
       run_extreme_cols f u.
Definition bt_u_like_x (p : ps_problem) (u : mat) : Res mat :=
  do s <- bt_u_s p u;
  do e <- bt_u_e p u;
  let l := if mem (ps_scheme p) (radau_like ++ lobato_like) then u else [s] ++ u in
  Ok (if mem (ps_scheme p) (radau_inv ++ lobato_like) then l else l ++ [e]).

(** opti.py:1483-1497 and 1819-1833: the dynamics constraints. *)
Definition bt_dyn (dyn : vec -> vec -> vec -> vec -> vec) (n_arr : nat) (coll : slice_idx)
  (w : ps_values) : list constr :=
  let indices := take coll (seq 0 n_arr) in
  map2 (fun ii jj =>
      let r := dyn (mrow jj (pv_x w)) (mrow jj (pv_x_d w)) (mrow ii (pv_u w)) (mrow ii (pv_lam w)) in
      ([r], [map (fun _ => 0) r]))
    (seq 0 (length indices)) indices.

(** opti.py:1402-1497 [_BU_Pseudospectral.apply_scheme] *)
Definition bu_apply_scheme (dyn : vec -> vec -> vec -> vec -> vec) (p : ps_problem) (w : ps_values)
  : Res (list constr) :=
  do s <- bu_opti_setup p;
  let scheme := ps_scheme p in
  let n_coll := ps_n_coll p in
  let order := ps_order p in
  let h := ps_t_end p - ps_t_start p in
  let x := pv_x w in let x_d := pv_x_d w in
  let hi := q_and_der p x x_d order in
  let q_and_ders_0 := map (fun ii => mrow 0 (q_and_der p x x_d ii)) (seq 0 order) in
  let hi_coll := take (bset_coll s) hi in
  let polynomial_data := q_and_ders_0 ++ hi_coll in
  do cs1 <-
    (if mem scheme (gauss_like ++ radau_inv) then
       do start_mat <- Extreme_Matrix n_coll scheme "start" order;
       Ok [([mrow 0 hi], mmul start_mat hi_coll)]
     else Ok []);
  do cs2 <-
    (if mem scheme (gauss_like ++ radau_like) then
       do end_mat <- Extreme_Matrix n_coll scheme "end" order;
       Ok [([mrow (length hi - 1) hi], mmul end_mat hi_coll)]
     else Ok []);
  do cs3 <- mapm (fun ii =>
       do I_mat <- Integration_Matrix n_coll scheme ii h order;
       Ok (skipn 1 (q_and_der p x x_d ii), mmul I_mat polynomial_data)) (seq 0 order);
  Ok (cs1 ++ cs2 ++ cs3 ++ bt_dyn dyn (bset_n_arr s) (bset_coll s) w).

(** opti.py:1752-1833 [_TD_Pseudospectral.apply_scheme]; [q_constr] is the
    extra variable of n_coll + order rows. *)
Definition td_apply_scheme (dyn : vec -> vec -> vec -> vec -> vec) (p : ps_problem) (w : ps_values)
  (q_constr : mat) : Res (list constr) :=
  do s <- td_opti_setup p;
  let scheme := ps_scheme p in
  let n_coll := ps_n_coll p in
  let order := ps_order p in
  let h := ps_t_end p - ps_t_start p in
  let x := pv_x w in let x_d := pv_x_d w in
  do D_nu <- matrix_D_nu (order + n_coll);
  do L <- matrix_L n_coll scheme order;
  let cs1 := map (fun ii =>
      let deriv_matrix := mmul (mscale ((2 / h) ^ ii) L) (mpow D_nu ii) in
      (q_and_der p x x_d ii, mmul deriv_matrix q_constr)) (seq 0 (order + 1)) in
  Ok (cs1 ++ bt_dyn dyn (bset_n_arr s) (bset_coll s) w).
End BuTd.
