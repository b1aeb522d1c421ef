(** Model of chords/pseudospectral.py and of the pseudospectral problem class
    of chords/opti.py.  Conventions:
    - floats are reals; evalf/float64 rounding is not modelled, so the
      [precission] arguments have no effect and are dropped;
    - values over several times are matrices, one row per time; 1-D arrays of
      states are not modelled apart (they behave like one column);
    - sympy's [real_roots] is a parameter, see PsSpec.v for what is assumed;
    - lru_cache is transparent here (the functions are pure); store_results is
      modelled in the model of chords/numpy.py. *)
From Coq Require Import String.
From Verif Require Import Prelude Poly Mat SplineModel PwInterpModel.
Open Scope R_scope.
Open Scope vec_scope.
Open Scope list_scope.

(** ** Names of the schemes (pseudospectral.py:40-57) *)
Section Names.
Local Open Scope string_scope.
Definition gauss_like : list string := ["LG"; "JG"; "CG"].
Definition gauss_inv : list string := map (fun s => String.append s "_inv") gauss_like.
Definition gauss_2 : list string := (map (fun s => String.append s "2") gauss_like ++ ["LGLm"])%list.
Definition radau_like : list string := ["LGR"; "JGR"; "CGR"].
Definition radau_inv : list string := map (fun s => String.append s "_inv") radau_like.
Definition lobato_like : list string := ["LGL"; "JGL"; "CGL"].
Definition other_schemes : list string := ["D2"].
Definition implemented_schemes : list string :=
  (gauss_like ++ gauss_inv ++ gauss_2 ++ radau_like ++ radau_inv ++ lobato_like ++ other_schemes)%list.
End Names.

(** ** Polynomials given by sympy *)

(** Binomial coefficient as a real. *)
Fixpoint binom (n k : nat) : nat :=
  match k, n with
  | O, _ => 1
  | S _, O => 0
  | S k', S n' => binom n' k' + binom n' k
  end.
Fixpoint ppow (c : list R) (n : nat) : list R :=
  match n with O => [1] | S n' => pmul c (ppow c n') end.

(** sympy.jacobi_poly(n, a, b) for integers a, b >= 0, by its closed form
    sum_s C(n+a, n-s) C(n+b, s) ((x-1)/2)^s ((x+1)/2)^(n-s). *)
Definition jacobi (n a b : nat) : list R :=
  fold_right padd []
    (map (fun s => pscale (INR (binom (n + a) (n - s) * binom (n + b) s))
                     (pmul (ppow [- (1/2); 1/2] s) (ppow [1/2; 1/2] (n - s))))
         (seq 0 (S n))).
(** sympy.legendre_poly(n) is jacobi_poly(n, 0, 0). *)
Definition legendre (n : nat) : list R := jacobi n 0 0.

(** ** Point sets *)
Section Points.
(** [Poly.real_roots()]. *)
Variable real_roots : list R -> list R.

(** pseudospectral.py:60-63 [LG] *)
Definition LG (N : nat) : vec := real_roots (legendre N).
(** pseudospectral.py:66-70 [LGR] *)
Definition LGR (N : nat) : vec := real_roots (padd (legendre N) (legendre (N - 1))).
(** pseudospectral.py:73-88 [LGL] *)
Definition LGL (N : nat) : vec := [-1] ++ real_roots (pderiv (legendre (N - 1))) ++ [1].
(** pseudospectral.py:91-94 [LGLm]: LGL(N + 2)[1:-1] *)
Definition LGLm (N : nat) : vec := butlastn 1 (skipn 1 (LGL (N + 2))).
(** pseudospectral.py:97-100 [LG2] (not used by [coll_points]) *)
Definition LG2 (N : nat) : vec := [-1] ++ LG (N - 2) ++ [1].
(** pseudospectral.py:103-109 [JG] *)
Definition JG (N order : nat) : vec := real_roots (jacobi N (order - 1) 0).
(** pseudospectral.py:112-118 [JGR] *)
Definition JGR (N order : nat) : vec := [-1] ++ real_roots (jacobi (N - 1) (order - 1) 1).
(** pseudospectral.py:121-127 [JGR_inv] *)
Definition JGR_inv (N order : nat) : vec := real_roots (jacobi (N - 1) order 0) ++ [1].
(** pseudospectral.py:130-140 [JGL] *)
Definition JGL (N order : nat) : vec := [-1] ++ real_roots (jacobi (N - 2) order 1) ++ [1].
(** pseudospectral.py:143-146 [JG2]: the precission (default 16) is passed as
    the order.  Not used by [coll_points]. *)
Definition JG2 (N precission : nat) : vec := [-1] ++ JG (N - 2) precission ++ [1].

(** pseudospectral.py:149-154 [CG] *)
Definition CG (N : nat) : vec :=
  let theta := map (fun k => PI * (2 * INR k + 1) / INR N / 2) (seq 0 N) in
  let tau := rev (map cos theta) in
  (tau -v rev tau) /v 2.
(** pseudospectral.py:157-162 [CGL] *)
Definition CGL (N : nat) : vec :=
  let theta := map (fun k => PI * INR k / (INR N - 1)) (seq 0 N) in
  let tau := rev (map cos theta) in
  (tau -v rev tau) /v 2.
(** pseudospectral.py:165-169 [CGR] *)
Definition CGR (N : nat) : vec :=
  let theta := map (fun k => PI * (2 * INR k) / (2 * INR N - 1)) (seq 0 N) in
  map (fun x => - x) (map cos theta).

(** [[-ii for ii in l[::-1]]] *)
Definition neg_rev (l : vec) : vec := map (fun x => - x) (rev l).

(** pseudospectral.py:172-228 [coll_points] *)
Definition coll_points (N : nat) (scheme : string) (order : nat) : Res vec :=
  if mem scheme ["LG"; "LG_inv"; "LG2"]%string then Ok (LG N)
  else if (scheme =? "LGR")%string then Ok (LGR N)
  else if (scheme =? "LGR_inv")%string then Ok (neg_rev (LGR N))
  else if mem scheme ["LGL"; "D2"]%string then Ok (LGL N)
  else if (scheme =? "LGLm")%string then Ok (LGLm N)
  else if mem scheme ["JG"; "JG_inv"; "JG2"]%string then Ok (JG N order)
  else if (scheme =? "JGR")%string then Ok (JGR N order)
  else if (scheme =? "JGR_inv")%string then Ok (JGR_inv N order)
  else if (scheme =? "JGL")%string then Ok (JGL N order)
  else if mem scheme ["CG"; "CG_inv"; "CG2"]%string then Ok (CG N)
  else if (scheme =? "CGR")%string then Ok (CGR N)
  else if (scheme =? "CGR_inv")%string then Ok (neg_rev (CGR N))
  else if (scheme =? "CGL")%string then Ok (CGL N)
  else Err ValueError.

(** pseudospectral.py:231-284 [node_points]: always order 2.  N - 1 and N - 2
    are natural number subtractions; theorems have N large enough. *)
Definition node_points (N : nat) (scheme : string) : Res vec :=
  if mem scheme (gauss_like ++ radau_inv) then
    do coll_p <- coll_points (N - 1) scheme 2; Ok ([-1] ++ coll_p)
  else if mem scheme (gauss_inv ++ radau_like) then
    do coll_p <- coll_points (N - 1) scheme 2; Ok (coll_p ++ [1])
  else if mem scheme lobato_like then coll_points N scheme 2
  else if mem scheme gauss_2 then
    do coll_p <- coll_points (N - 2) scheme 2; Ok ([-1] ++ coll_p ++ [1])
  else if mem scheme other_schemes then
    if mem scheme ["D2"%string] then Ok (LGL N) else Err NotImplementedError
  else Err ValueError.

(** pseudospectral.py:287-309 [n_col_to_n_nodes] *)
Definition n_col_to_n_nodes (scheme : string) (n_coll : nat) : Res nat :=
  if mem scheme (gauss_like ++ gauss_inv) then Ok (n_coll + 1)%nat
  else if mem scheme (radau_inv ++ radau_like) then Ok (n_coll + 1)%nat
  else if mem scheme gauss_2 then Ok (n_coll + 2)%nat
  else if mem scheme lobato_like then Ok n_coll
  else if mem scheme other_schemes then
    if (scheme =? "D2")%string then Ok n_coll else Err NotImplementedError
  else Err NotImplementedError.

(** A slice with constant bounds: how many items it drops at each end. *)
Definition slice_idx : Type := nat * nat.
Definition take {A} (s : slice_idx) (l : list A) : list A :=
  firstn (length l - fst s - snd s) (skipn (fst s) l).

(** pseudospectral.py:312-354 [get_coll_indices_from_nodes] *)
Definition get_coll_indices_from_nodes (scheme : string) : Res slice_idx :=
  if mem scheme (gauss_like ++ radau_inv) then Ok (1, 0)%nat
  else if mem scheme (gauss_inv ++ radau_like) then Ok (0, 1)%nat
  else if mem scheme lobato_like then Ok (0, 0)%nat
  else if mem scheme gauss_2 then Ok (1, 1)%nat
  else if mem scheme other_schemes then
    if mem scheme ["D2"%string] then Ok (0, 0)%nat else Err NotImplementedError
  else Err NotImplementedError.

(** pseudospectral.py:357-397 [get_coll_indices] *)
Definition get_coll_indices (scheme : string) : Res slice_idx :=
  if mem scheme (gauss_like ++ gauss_inv ++ gauss_2) then Ok (1, 1)%nat
  else if mem scheme radau_like then Ok (0, 1)%nat
  else if mem scheme radau_inv then Ok (1, 0)%nat
  else if mem scheme lobato_like then Ok (0, 0)%nat
  else if mem scheme other_schemes then
    if mem scheme ["D2"%string] then Ok (0, 0)%nat else Err NotImplementedError
  else Err NotImplementedError.

(** ** Time maps *)
(** pseudospectral.py:400-428 [tau_to_t_points], one point *)
Definition tau_to_t (p t0 tf : R) : R := let h := tf - t0 in t0 + h * (p + 1) / 2.
(** pseudospectral.py:431-459 [t_to_tau_points], one point *)
Definition t_to_tau (p t0 tf : R) : R := let h := tf - t0 in -1 + 2 * (p - t0) / h.
(** The same on a list. *)
Definition tau_to_t_points (ps : vec) (t0 tf : R) : vec := map (fun p => tau_to_t p t0 tf) ps.
Definition t_to_tau_points (ps : vec) (t0 tf : R) : vec := map (fun p => t_to_tau p t0 tf) ps.
(** pseudospectral.py:462-504 [tau_to_t_function] *)
Definition tau_to_t_function {A} (f : R -> A) (t0 tf : R) : R -> A :=
  let h := tf - t0 in fun t => let tau := 2 * (t - t0) / h - 1 in f tau.

(** ** Symbolic Lagrange polynomials *)
(** pseudospectral.py:523-535 [lag_pol]: labels equal to the current one are
    skipped by value; [expand] only rewrites. *)
Definition lag_pol (labels : vec) (j : nat) : list R :=
  let current := vnth labels j in
  fold_right
    (fun m acc =>
       if Req_EM_T m current then acc
       else pmul [- m / (current - m); 1 / (current - m)] acc)
    [1] labels.
(** pseudospectral.py:538-565 [lagrangePolynomial] *)
Definition lagrangePolynomial (xs ys : vec) : list R :=
  fold_right padd []
    (map (fun j => pscale (vnth ys j) (lag_pol xs j)) (seq 0 (length ys))).

(** ** Barycentric coordinates *)
(** max and min of a non-empty array *)
Definition npmax (l : vec) : R := match l with [] => 0 | a :: l' => fold_right Rmax a l' end.
Definition npmin (l : vec) : R := match l with [] => 0 | a :: l' => fold_right Rmin a l' end.

(** pseudospectral.py:571-600 [_v_sum] *)
Definition v_sum (t_arr : vec) (i : nat) : R :=
  let n := length t_arr in
  let h := npmax t_arr - npmin t_arr in
  let t_arr := (4 / h) *v t_arr in
  let indices := pop_at i (seq 0 n) in
  let subst := map (fun t => vnth t_arr i - t) t_arr in
  let v_i := fold_right Rmult 1 (map (vnth subst) indices) in
  INR n / v_i.

(** pseudospectral.py:603-648 [v_coef] *)
Definition v_coef (N i : nat) (scheme : string) (order : nat) : Res R :=
  if (2 <? order)%nat then Err ValueError
  else do taus <- node_points N scheme; Ok (v_sum taus i).
(** pseudospectral.py:651-691 [v_coef_coll] *)
Definition v_coef_coll (N i : nat) (scheme : string) (order : nat) : Res R :=
  do taus <- coll_points N scheme order; Ok (v_sum taus i).

(** pseudospectral.py:732-743: the two loops of [matrix_D_bary]. *)
Definition D_offdiag (N : nat) (taus v_arr : vec) : mat :=
  map (fun i => map (fun j =>
        if (j =? i)%nat then 0
        else (vnth v_arr j / vnth v_arr i) / (vnth taus i - vnth taus j)) (seq 0 N)) (seq 0 N).
Definition D_diag (M : mat) : mat :=
  map (fun j => map (fun k => if (k =? j)%nat then - vsum (mrow j M) else mget M j k)
                    (seq 0 (length M))) (seq 0 (length M)).
(** pseudospectral.py:694-743 [matrix_D_bary] *)
Definition matrix_D_bary (N : nat) (scheme : string) : Res mat :=
  do taus <- node_points N scheme;
  do v_arr <- mapm (fun ii => v_coef N ii scheme 2) (seq 0 N);
  Ok (D_diag (D_offdiag N taus v_arr)).

(** [{t_arr[ii]: y_arr[ii] for ii in range(n)}.get(t)]: a later pair with an
    equal key wins. *)
Definition dict_get (t_arr y_arr : vec) (t : R) : option R :=
  fold_left (fun acc ty => if Req_EM_T (fst ty) t then Some (snd ty) else acc)
            (combine t_arr y_arr) None.
(** pseudospectral.py:790-848 [bary_poly], at one time *)
Definition bary_poly (t_arr y_arr : vec) (t : R) : R :=
  let n := length t_arr in
  let v_arr := map (v_sum t_arr) (seq 0 n) in
  match dict_get t_arr y_arr t with
  | Some y => y
  | None =>
      let t_sub := map (fun s => t - s) t_arr in
      vsum (map2 Rdiv (vmul v_arr y_arr) t_sub) / vsum (map2 Rdiv v_arr t_sub)
  end.
(** pseudospectral.py:851-876 [bary_poly_2d] on a matrix, at one time: one
    value per column (numpy.py:43-48 [combinefunctions]). *)
Definition bary_poly_2d (t_arr : vec) (y_arr : mat) (t : R) : vec :=
  map (fun ii => bary_poly t_arr (mcol ii y_arr) t) (seq 0 (mwidth y_arr)).

(** pseudospectral.py:879-915 [unit_Lag_pol], away from the points.  [zeros]
    is sympy's here, so [y] is an N x N matrix whose flat entry n (row 0,
    column n) is 1; v_arr * y_arr is a matrix with that row, and the sum over
    all its entries is the sum over the row.  At a point of the set the
    function returns a whole row of that matrix instead of a number (None
    here). *)
Definition unit_Lag_pol (N : nat) (scheme : string) (n : nat) (kind : string) (t : R)
  : Res (option R) :=
  if negb (mem kind ["q"; "u"]%string) then Err AssertionError
  else
    do x <- (if (kind =? "q")%string then node_points N scheme else coll_points N scheme 2);
    if (N * N <=? n)%nat then Err IndexError
    else if existsb (fun s => if Req_EM_T s t then true else false) x then Ok None
    else
      let y := map (fun r => map (fun c => if (r * N + c =? n)%nat then 1 else 0) (seq 0 N)) (seq 0 N) in
      let v_arr := map (v_sum x) (seq 0 N) in
      let t_sub := map (fun s => t - s) x in
      Ok (Some (vsum (map (fun r => vsum (map2 Rdiv (vmul v_arr r) t_sub)) y)
                / vsum (map2 Rdiv v_arr t_sub))).

(** pseudospectral.py:918-965 [vector_interpolator].  [zeros] is sympy's again;
    only row 0 of the N x N result is kept here, the other rows are zero.
    When the target point is one of the source points, a whole row is assigned
    to an entry (ValueError). *)
Definition vector_interpolator (N_from N_to : nat) (scheme_from scheme_to : string) (n : nat)
  (kind : string) : Res vec :=
  if negb (mem kind ["q"; "u"]%string) then Err AssertionError
  else if (N_from =? N_to)%nat && (scheme_from =? scheme_to)%string then
    if (N_from * N_from <=? n)%nat then Err IndexError
    else Ok (map (fun ii => if (ii =? n)%nat then 1 else 0) (seq 0 N_from))
  else
    do pts <- (if (kind =? "q")%string then node_points N_to scheme_to
               else coll_points N_to scheme_to 2);
    if (length pts <=? n)%nat then Err IndexError
    else
      mapm (fun ii =>
        do v <- unit_Lag_pol N_from scheme_from ii kind (vnth pts n);
        match v with Some y => Ok y | None => Err ValueError end) (seq 0 N_from).

(** ** Extreme points *)
(** The first and last item, coefs[0] and coefs[-1]. *)
Definition first_item (l : vec) : Res R := match l with [] => Err IndexError | a :: _ => Ok a end.
Definition last_item (l : vec) : Res R := match rev l with [] => Err IndexError | a :: _ => Ok a end.

(** pseudospectral.py:970-1059 [get_bary_extreme_f] (and its casadi copy
    1062-1081, which evaluates the same expression; casadi applies a function
    of a column to each column of a matrix). *)
Inductive extreme_f := Coef_first | Coef_last | Coef_bary (sup : vec) (inf : R).
Definition run_extreme (f : extreme_f) (coefs : vec) : Res R :=
  match f with
  | Coef_first => first_item coefs
  | Coef_last => last_item coefs
  | Coef_bary sup inf =>
      if (length coefs <? length sup)%nat then Err IndexError
      else Ok (rsum (length sup) (fun ii => vnth coefs ii * vnth sup ii) / inf)
  end.
Definition bary_extreme (scheme : string) (N : nat) (mode : string) (p : R) (order : nat)
  : Res extreme_f :=
  do v_arr <- mapm (fun ii => if (mode =? "u")%string then v_coef_coll N ii scheme order
                              else v_coef N ii scheme order) (seq 0 N);
  do t_arr <- (if (mode =? "u")%string then coll_points N scheme order
               else node_points N scheme);
  Ok (Coef_bary (map (fun i => vnth v_arr i / (p - vnth t_arr i)) (seq 0 N))
                (rsum N (fun i => vnth v_arr i / (p - vnth t_arr i)))).
Definition get_bary_extreme_f (scheme : string) (N : nat) (mode point : string) (order : nat)
  : Res extreme_f :=
  if (point =? "start")%string then
    if (mode =? "u")%string then
      if mem scheme (lobato_like ++ radau_like ++ ["D2"%string]) then Ok Coef_first
      else bary_extreme scheme N mode (-1) order
    else if (mode =? "x")%string then
      if negb (mem scheme gauss_inv) then Ok Coef_first
      else bary_extreme scheme N mode (-1) order
    else Err ValueError
  else if (point =? "end")%string then
    if (mode =? "u")%string then
      if mem scheme (lobato_like ++ radau_inv ++ ["D2"%string]) then Ok Coef_last
      else bary_extreme scheme N mode 1 order
    else if (mode =? "x")%string then
      if negb (mem scheme gauss_like) then Ok Coef_last
      else bary_extreme scheme N mode 1 order
    else Err ValueError
  else Err ValueError.

(** pseudospectral.py:1095-1103 [diff_end_p_fun] (1150-1163 is the casadi copy) *)
Definition diff_end_p_fun (N : nat) (scheme : string) (coefs : vec) : Res R :=
  do taus <- node_points N scheme;
  Ok (peval (pderiv (lagrangePolynomial taus coefs)) 1).
(** pseudospectral.py:1116-1124 [diff_start_p_fun] (1189-1202 is the casadi
    copy): the derivative is taken at x = 0. *)
Definition diff_start_p_fun (N : nat) (scheme : string) (coefs : vec) : Res R :=
  do taus <- node_points N scheme;
  Ok (peval (pderiv (lagrangePolynomial taus coefs)) 0).

(** ** Interpolation of a solution *)
(** numpy.searchsorted(xp, x), side left: number of entries < x of a sorted
    array. *)
Definition searchsorted (xp : vec) (x : R) : nat :=
  length (filter (fun s => if Rlt_dec s x then true else false) xp).
(** pseudospectral.py:1208-1222 [find_der_polyline], one abscissa, rows of a
    2-D array. *)
Definition find_der_polyline (x_n : R) (xp : vec) (yp : mat) : Res vec :=
  let n := (searchsorted xp x_n - 1)%nat in
  if negb (length xp =? length yp)%nat then Err ValueError
  else if (length xp - 1 <=? n)%nat then Err IndexError
  else Ok ((mrow (S n) yp -v mrow n yp) /v (vnth xp (S n) - vnth xp n)).

(** pseudospectral.py:1225-1233 [get_pol_u], at one tau *)
Definition get_pol_u (scheme : string) (uu : mat) (tau : R) : Res vec :=
  do taus <- coll_points (length uu) scheme 2; Ok (bary_poly_2d taus uu tau).

(** pseudospectral.py:1236-1295 [get_pol_x], at one tau: the values of
    q, v, q', v', q''. *)
Definition get_pol_x (scheme : string) (qq vv : mat) (t0 t1 tau : R)
  : Res (vec * vec * vec * vec * vec) :=
  let N := length qq in
  do tau_x <- node_points N scheme;
  do D <- matrix_D_bary N scheme;
  let qq_d := mscale (2 / (t1 - t0)) (mmul D qq) in
  let vv_d := mscale (2 / (t1 - t0)) (mmul D vv) in
  let qq_d_d := mscale (2 / (t1 - t0)) (mmul D qq_d) in
  Ok (bary_poly_2d tau_x qq tau, bary_poly_2d tau_x vv tau, bary_poly_2d tau_x qq_d tau,
      bary_poly_2d tau_x vv_d tau, bary_poly_2d tau_x qq_d_d tau).

(** An extreme function applied to every column of a matrix. *)
Definition run_extreme_cols (f : extreme_f) (X : mat) : Res vec :=
  mapm (fun j => run_extreme f (mcol j X)) (seq 0 (mwidth X)).

(** pseudospectral.py:1298-1383 [extend_x_arrays] *)
Definition extend_x_arrays (qq vv : mat) (scheme : string) : Res (vec * mat * mat) :=
  let N := length qq in
  if mem scheme ["LG"; "CG"]%string then
    do tx <- node_points N scheme;
    do f <- get_bary_extreme_f scheme N "x" "end" 2;
    do q1 <- run_extreme_cols f qq; do v1 <- run_extreme_cols f vv;
    Ok (tx ++ [1], qq ++ [q1], vv ++ [v1])
  else if mem scheme ["LG_inv"; "CG_inv"]%string then
    do tx <- node_points N scheme;
    do f <- get_bary_extreme_f scheme N "x" "start" 2;
    do q1 <- run_extreme_cols f qq; do v1 <- run_extreme_cols f vv;
    Ok ([-1] ++ tx, qq ++ [q1], vv ++ [v1])
  else do tx <- node_points N scheme; Ok (tx, qq, vv).

(** pseudospectral.py:1386-1442 [extend_u_array]: [order] is passed to
    [coll_points] as its precission, so the points are those of order 2. *)
Definition extend_u_array (uu : mat) (scheme : string) (N order : nat) : Res (vec * mat) :=
  do tau_u <- coll_points N scheme 2;
  let n_col := length uu in
  do f0 <- get_bary_extreme_f scheme n_col "u" "start" order;
  do uu_0 <- run_extreme_cols f0 uu;
  do fe <- get_bary_extreme_f scheme n_col "u" "end" order;
  do uu_e <- run_extreme_cols fe uu;
  if mem scheme ["LG2"; "LG"; "JG"; "LG_inv"; "LGLm"; "CG"; "CG_inv"]%string then
    Ok ([-1] ++ tau_u ++ [1], [uu_0] ++ uu ++ [uu_e])
  else if mem scheme ["LGR"; "JGR"; "CGR"]%string then Ok (tau_u ++ [1], uu ++ [uu_e])
  else if mem scheme ["LGR_inv"; "JGR_inv"; "CGR_inv"]%string then Ok ([-1] ++ tau_u, [uu_0] ++ uu)
  else if mem scheme ["LGL"; "D2"; "JGL"; "CGL"]%string then Ok (tau_u, uu)
  else Err ValueError.

(** piecewise.py:74-98 [interp_2d] at one abscissa: numpy.interp on each
    column, ValueError when the lengths differ. *)
Definition interp_2d (ts : vec) (Y : mat) (t : R) : Res vec :=
  if negb (length ts =? length Y)%nat then Err ValueError else np_interp_rows ts Y t.

(** pseudospectral.py:1477-1640 [interpolations_pseudospectral] with
    given_t_arr, at one time.  "smooth" for u calls numpy.gradient with one
    list of points for the two dimensions of u, which is a TypeError.  1445-1458
    [get_hermite_x] is in the "Hermite" branch.  The check of the scheme name has no effect (the NameError is not raised).
    Result: q, q', v, v', q'', u. *)
Definition interpolations_pseudospectral (qq vv uu : mat) (scheme : string) (t0 t1 : R)
  (u_interp x_interp : string) (t : R) : Res (vec * vec * vec * vec * vec * vec) :=
  let N := length qq in
  let tau := t_to_tau t t0 t1 in
  do u <- (if (u_interp =? "pol")%string then get_pol_u scheme uu tau
           else if (u_interp =? "lin")%string then
             do (tau_u, uu') <- extend_u_array uu scheme N 2; interp_2d tau_u uu' tau
           else if (u_interp =? "smooth")%string then
             do (tau_u, uu') <- extend_u_array uu scheme N 2; Err TypeError
           else Err NameError);
  if (x_interp =? "pol")%string then
    do (q, v, qd, vd, qdd) <- get_pol_x scheme qq vv t0 t1 tau;
    Ok (q, qd, v, vd, qdd, u)
  else if (x_interp =? "lin")%string then
    do (tau_x, qq', vv') <- extend_x_arrays qq vv scheme;
    do q <- interp_2d tau_x qq' tau;
    do v <- interp_2d tau_x vv' tau;
    let coll_p := map (fun x => t0 + (1 + x) * (t1 - t0) / 2) tau_x in
    do qd <- find_der_polyline t coll_p qq';
    do vd <- find_der_polyline t coll_p vv';
    Ok (q, qd, v, vd, map (fun _ => 0) q, u)
  else if (x_interp =? "Hermite")%string then
    do (tau_x, qq', vv') <- extend_x_arrays qq vv scheme;
    do D_mat <- matrix_D_bary (length vv') scheme;
    let aa := mmul (mscale (2 / (t1 - t0)) D_mat) vv' in
    let coll_p := map (fun x => t0 + (1 + x) * (t1 - t0) / 2) tau_x in
    do her_q <- hermite coll_p qq' vv';
    do her_v <- hermite coll_p vv' aa;
    Ok (sp_eval her_q t, sp_eval (sp_derivative her_q) t, sp_eval her_v t,
        sp_eval (sp_derivative her_v) t, sp_eval (sp_derivative (sp_derivative her_q)) t, u)
  else Err NameError.

(** pseudospectral.py:1643-1770 [interpolations_deriv_pseudospectral], at one
    time.  For "lin" the slope is per unit of tau. *)
Definition interpolations_deriv_pseudospectral (xx : mat) (scheme : string) (deriv_order : nat)
  (t0 t1 : R) (x_interp : string) (t : R) : Res vec :=
  let N := length xx in
  let tau := t_to_tau t t0 t1 in
  do tau_x <- node_points N scheme;
  if (x_interp =? "pol")%string then
    do D <- matrix_D_bary N scheme;
    let h := t1 - t0 in
    let xx_d := mscale ((2 / h) ^ deriv_order) (mmul (mpow D deriv_order) xx) in
    Ok (bary_poly_2d tau_x xx_d tau)
  else if (x_interp =? "lin")%string then
    match deriv_order with
    | O => interp_2d tau_x xx tau
    | S O => find_der_polyline tau tau_x xx
    | _ => Ok (repeat 0 (mwidth xx))
    end
  else if (x_interp =? "Hermite")%string then
    do D <- matrix_D_bary N scheme;
    let h := t1 - t0 in
    let xx_d := mscale ((2 / h) ^ deriv_order) (mmul (mpow D deriv_order) xx) in
    do herm <- hermite (tau_to_t_points tau_x t0 t1) xx xx_d;
    Ok (sp_eval (Nat.iter deriv_order sp_derivative herm) t)
  else Err NameError.

(** pseudospectral.py:1773-1884 [dynamic_error_pseudospectral]: the call
    passes g_func, params, n_interp one position too early, so n_interp
    arrives as given_t_arr.  The result is that of the single time
    t = n_interp.  [g] is the dynamics q'' = g(q, v, u). *)
Definition dynamic_error_pseudospectral (qq vv uu : mat) (scheme : string) (t0 t1 : R)
  (u_interp x_interp : string) (g : vec -> vec -> vec -> vec) (n_interp : nat)
  : Res (vec * vec * vec) :=
  do (q, qd, v, vd, qdd, u) <-
    interpolations_pseudospectral qq vv uu scheme t0 t1 u_interp x_interp (INR n_interp);
  Ok (qd -v v, vd -v g q v u, qdd -v g q qd u).

(** ** The pseudospectral problem (opti.py:603-1042) *)
Record ps_problem := {
  ps_scheme : string; ps_n_coll : nat; ps_order : nat; ps_n_q : nat;
  ps_t_start : R; ps_t_end : R }.

(** Values given to the casadi variables: x and x_d (n_arr rows of
    order * n_q), u and lam (n_coll rows). *)
Record ps_values := { pv_x : mat; pv_x_d : mat; pv_u : mat; pv_lam : mat }.

(** What [opti_setup] computes (opti.py:638-806). *)
Record ps_setup := {
  pset_n_nodes : nat; pset_n_arr : nat; pset_D : mat;
  pset_tau : vec; pset_tau_node : vec; pset_tau_col : vec;
  pset_node : slice_idx }.      (* x_opti -> x_node_opti *)
Definition opti_setup (p : ps_problem) : Res ps_setup :=
  let scheme := ps_scheme p in
  do coll_index <- get_coll_indices_from_nodes scheme;
  if mem scheme (gauss_2 ++ ["D2"%string]) && negb (ps_order p =? 2)%nat
  then Err AssertionError
  else
    do n_nodes <- n_col_to_n_nodes scheme (ps_n_coll p);
    do tau_col <- coll_points (ps_n_coll p) scheme 2;
    do tau_node <- node_points n_nodes scheme;
    let '(n_arr, tau, sl) :=
      if mem scheme gauss_like then ((n_nodes + 1)%nat, tau_node ++ [1], (0, 1)%nat)
      else if mem scheme gauss_inv then ((n_nodes + 1)%nat, [-1] ++ tau_node, (1, 0)%nat)
      else (n_nodes, tau_node, (0, 0)%nat) in
    do D <- matrix_D_bary n_nodes scheme;
    Ok (Build_ps_setup n_nodes n_arr D tau tau_node tau_col sl).

(** opti.py:763-781, 784: the arrays t, t_node, t_col of [opti_arrs]. *)
Definition t_of (p : ps_problem) (taus : vec) : vec :=
  tau_to_t_points taus (ps_t_start p) (ps_t_end p).

(** opti.py:795-819: [opti_points] u_s and u_e. *)
Definition u_s (p : ps_problem) (u : mat) : Res vec :=
  if mem (ps_scheme p) (radau_like ++ lobato_like ++ ["D2"%string]) then Ok (mrow 0 u)
  else do f <- get_bary_extreme_f (ps_scheme p) (ps_n_coll p) "u" "start" (ps_order p);
       run_extreme_cols f u.
Definition u_e (p : ps_problem) (u : mat) : Res vec :=
  if mem (ps_scheme p) (radau_inv ++ lobato_like ++ ["D2"%string])
  then Ok (mrow (length u - 1) u)
  else do f <- get_bary_extreme_f (ps_scheme p) (ps_n_coll p) "u" "end" (ps_order p);
       run_extreme_cols f u.

(** An emitted constraint: two matrices required to be equal. *)
Definition constr : Type := (mat * mat)%type.
Definition satisfied (cs : list constr) : Prop := Forall (fun c => fst c = snd c) cs.

(** q_and_ders[i] (opti.py:724-735): n_q columns of x, or the last ones of x_d. *)
Definition q_and_der (p : ps_problem) (x x_d : mat) (i : nat) : mat :=
  if (i <? ps_order p)%nat then mcols (ps_n_q p * i) (ps_n_q p * (i + 1)) x
  else mlastcols (ps_n_q p) x_d.

(** opti.py:943-1042 [apply_scheme].  [dyn] is dyn_f_restr with the
    parameters fixed. *)
Definition apply_scheme (dyn : vec -> vec -> vec -> vec -> vec) (p : ps_problem) (w : ps_values)
  : Res (list constr) :=
  do s <- opti_setup p;
  let scheme := ps_scheme p in
  let x := pv_x w in let x_d := pv_x_d w in
  let x_node := take (pset_node s) x in
  let x_d_node := take (pset_node s) x_d in
  let k := 2 / (ps_t_end p - ps_t_start p) in
  let cs1 :=
    if mem scheme (gauss_2 ++ ["D2"%string]) then
      let q_node := q_and_der p x_node x_d_node 0 in
      let v_node := q_and_der p x_node x_d_node 1 in
      let a_node := q_and_der p x_node x_d_node 2 in
      [(v_node, mscale k (mmul (pset_D s) q_node)); (a_node, mscale k (mmul (pset_D s) v_node))]
    else [(x_d_node, mscale k (mmul (pset_D s) x_node))] in
  let hi := q_and_der p x x_d (ps_order p) in
  let hi_node := q_and_der p x_node x_d_node (ps_order p) in
  do cs2 <-
    (if mem scheme gauss_inv then
       do f <- get_bary_extreme_f scheme (pset_n_nodes s) "x" "start" (ps_order p);
       do x_start <- run_extreme_cols f x_node;
       do h_start <- run_extreme_cols f hi_node;
       Ok [([mrow 0 x], [x_start]); ([mrow 0 hi], [h_start])]
     else Ok []);
  do cs3 <-
    (if mem scheme gauss_like then
       do f <- get_bary_extreme_f scheme (pset_n_nodes s) "x" "end" (ps_order p);
       do x_end <- run_extreme_cols f x_node;
       do h_end <- run_extreme_cols f hi_node;
       Ok [([mrow (length x - 1) x], [x_end]); ([mrow (length x - 1) hi], [h_end])]
     else Ok []);
  let i0 := if mem scheme (lobato_like ++ radau_like ++ ["D2"%string]) then O else 1%nat in
  let cs4 := map (fun ii =>
      let r := dyn (mrow (i0 + ii) x) (mrow (i0 + ii) x_d) (mrow ii (pv_u w)) (mrow ii (pv_lam w)) in
      ([r], [map (fun _ => 0) r])) (seq 0 (ps_n_coll p)) in
  Ok (cs1 ++ cs2 ++ cs3 ++ cs4).
End Points.
