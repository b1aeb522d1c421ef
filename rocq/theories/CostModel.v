(** Model of the cost functions of chords/opti.py.  A cost is the value of the
    casadi expression given to [opti.minimize] when the variables have the
    given values; arrays are matrices, one row per time.  lru_cache is
    transparent (the functions are pure). *)
From Coq Require Import String.
From Verif Require Import Prelude Poly Mat PwInterpModel PsModel UtilModel BuTdModel.
Open Scope R_scope.
Open Scope vec_scope.
Open Scope list_scope.

(** casadi: sum1 adds the rows, sum2 of one row adds its entries.  [m] is the
    number of columns, which casadi also knows for a matrix without rows. *)
Definition sum1 (m : nat) (A : mat) : vec := map (fun j => vsum (mcol j A)) (seq 0 m).
Definition sum2 (r : vec) : R := vsum r.
(** arr**2, entry by entry; x**exp *)
Definition msq (A : mat) : mat := map (map (fun x => x ^ 2)) A.
Definition pow_exp (squared : bool) (x : R) : R := x ^ (if squared then 2 else 1)%nat.

(** ** Equispaced problems *)

(** opti.py:371-387 [exact_cuadratic_squared_integration], one entry *)
Definition exact_entry (h a b c : R) : R :=
  h * (2 * a ^ 2 + 2 * a * b - a * c + 8 * b ^ 2 + 2 * b * c + 2 * c ^ 2) / 15.
(** opti.py:371-387 on 2-D arrays.  casadi and numpy refuse arrays of different
    shapes (casadi raises RuntimeError; numpy would broadcast some, which is
    not modelled). *)
Definition same_shape (A B : mat) : bool :=
  (length A =? length B)%nat && forallb (fun p => (length (fst p) =? length (snd p))%nat) (combine A B).
Definition exact_cuadratic_squared_integration (x_arr x_c_arr : mat) (h : R) : Res mat :=
  let a := butlastn 1 x_arr in
  let b := x_c_arr in
  let c := skipn 1 x_arr in
  if same_shape a b && same_shape b c
  then Ok (map2 (fun ab c => map2 (fun p z => exact_entry h (fst p) (snd p) z) ab c)
                (map2 (fun r s => combine r s) a b) c)
  else Err RuntimeError.

(** opti.py:1980-2020 [_Equispaced.quad_cost] *)
Definition eq_quad_cost (t_start t_end : R) (N : nat) (arr : mat) (arr_c : option mat) (squared : bool) : R :=
  let dt := t_end - t_start in
  let sum1 := sum1 (mwidth arr) in
  let arr := if squared then msq arr else arr in
  match arr_c with
  | None => dt * sum2 ((sum1 arr +v sum1 (butlastn 1 (skipn 1 arr))) /v INR N)
  | Some arr_c =>
      let arr_c := if squared then msq arr_c else arr_c in
      dt * sum2 ((((4 *v sum1 arr_c) +v sum1 arr) +v sum1 (butlastn 1 (skipn 1 arr))) /v (6 * INR N))
  end.

(** opti.py:2022-2053 [_Equispaced.sq_cost].  Without arr_c the middle values
    are averages of neighbouring columns, not rows. *)
Definition eq_sq_cost (t_start t_end : R) (N : nat) (arr : mat) (arr_c : option mat) : Res R :=
  let dt := t_end - t_start in
  let h := dt / INR N in
  let arr_c := match arr_c with
               | Some c => c
               | None => map (fun r => (butlastn 1 r +v skipn 1 r) /v 2) arr
               end in
  do int_arr <- exact_cuadratic_squared_integration arr arr_c h;
  Ok (sum2 (sum1 (mwidth int_arr) int_arr)).

(** opti.py:2055-2118 [_Equispaced.u_sq_cost]: the cost, and the constraint
    added for "hsj_parab_mod".  [sub_in s scheme] is Python's [s in scheme];
    [u_c] and [u_j] are opti_arrs["u_c"] and opti_arrs["u_j"]. *)
Definition sub_in (s scheme : string) : bool := match String.index 0 s scheme with Some _ => true | None => false end.
Definition eq_u_sq_cost (t_start t_end : R) (N : nat) (scheme : string) (u u_c u_j : mat)
  : R * list constr :=
  let dt := t_end - t_start in
  let sum1 := sum1 (mwidth u) in
  let U_sq := msq u in
  let inner := sum1 (butlastn 1 (skipn 1 U_sq)) in
  if sub_in "parab" scheme then
    let '(U_c, cs) :=
      if (scheme =? "hsj_parab_mod")%string
      then (u_j, [(u_c, map2 (fun c nu => ((24 *v c) -v (2 *v fst nu) +v (3 *v snd nu)) /v 25)
                             u_j (combine (skipn 1 u) (butlastn 1 u)))])
      else (u_c, []) in
    let U_c_sq := msq U_c in
    if sub_in "j" scheme && negb (scheme =? "hsj_parab_mod")%string
    then (dt * sum2 ((((25 *v sum1 U_c_sq) +v (3 *v sum1 (butlastn 1 U_sq)))
                      +v (8 *v sum1 (skipn 1 U_sq))) /v (36 * INR N)), cs)
    else (dt * sum2 ((((4 *v sum1 U_c_sq) +v sum1 U_sq) +v inner) /v (6 * INR N)), cs)
  else (dt * sum2 ((sum1 U_sq +v inner) /v (2 * INR N)), []).

(** ** Pseudospectral, bottom-up and top-down problems *)
Section Ps.
Variable real_roots : list R -> list R.
Variable leggauss : nat -> vec * vec.

(** A casadi function of one column of [N] entries called on a matrix: once per
    column, RuntimeError for a different number of rows (a 1 x 1 argument,
    which casadi repeats, needs N = 1 in the callers). *)
Definition cas_cols (N : nat) (f : vec -> R) (A : mat) : Res vec :=
  if (length A =? N)%nat then Ok (map (fun j => f (mcol j A)) (seq 0 (mwidth A)))
  else Err RuntimeError.

(** opti.py:345-368 [_get_cost_obj_quad_int_cas], called on [arr] *)
Definition quad_int (scheme : string) (N order : nat) (squared : bool) (mode : string) (arr : mat)
  : Res vec :=
  let scheme := strip "TD_" (strip "BU_" scheme) in
  do weights <- get_weights real_roots leggauss N scheme order mode;
  cas_cols N (fun u => vsum (vmul weights (map (pow_exp squared) u))) arr.

(** opti.py:840-880 [_Pseudospectral.quad_cost], 1325-1365 and 1677-1717 (the
    same code in the bottom-up and top-down classes); [n_arr] is what
    opti_setup stored. *)
Definition quad_cost (p : ps_problem) (n_arr : nat) (arr : mat) (squared : bool) : Res R :=
  let dt := ps_t_end p - ps_t_start p in
  let N_arr := length arr in
  do mode <- (if (N_arr =? ps_n_coll p)%nat then Ok "u"%string
              else if (N_arr =? n_arr)%nat then Ok "x"%string else Err ValueError);
  do r <- quad_int (ps_scheme p) N_arr (ps_order p) squared mode arr;
  Ok (dt * sum2 r).
(** opti.py:882-901 [_Pseudospectral.u_sq_cost] *)
Definition ps_u_sq_cost (p : ps_problem) (n_arr : nat) (u : mat) : Res R := quad_cost p n_arr u true.
(** opti.py:1292-1323, 1644-1675 [u_sq_cost] of the bottom-up and top-down
    classes: the order is not passed, so the points are those of order 2. *)
Definition bt_u_sq_cost (p : ps_problem) (u : mat) : Res R :=
  let dt := ps_t_end p - ps_t_start p in
  do r <- quad_int (ps_scheme p) (ps_n_coll p) 2 true "u" u;
  Ok (dt * sum2 r).

(** opti.py:244-296 [_get_cost_obj_trap_int] with mode="u" (the only one used,
    see below).  The extreme functions are applied to the coefficients; in
    Python they are casadi functions called on sympy symbols, which casadi may
    refuse: the model gives them their meaning. *)
Definition trap_int (scheme : string) (N order : nat) (squared : bool) (coefs : vec) : Res R :=
  do pts <- BU_construction_points real_roots N scheme order;
  let t_arr := pts ++ [1] in
  do start_p_f <- get_bary_extreme_f real_roots scheme N "u" "start" order;
  do end_p_f <- get_bary_extreme_f real_roots scheme N "u" "end" order;
  do start_p <- run_extreme start_p_f coefs;
  do end_p <- run_extreme end_p_f coefs;
  do coef_list <-
    (if mem scheme ["LG"; "JG"; "LG2"]%string then Ok ([start_p] ++ coefs ++ [end_p])
     else if mem scheme ["LGR"; "JGR"]%string then Ok (coefs ++ [end_p])
     else if mem scheme ["LGR_inv"; "JGR_inv"]%string then Ok ([start_p] ++ coefs)
     else if mem scheme ["LGL"; "JGL"; "D2"]%string then Ok coefs
     else Err NotImplementedError);
  if (length coef_list <? length t_arr)%nat then Err IndexError
  else
    Ok (rsum (length t_arr - 1) (fun jj =>
          (pow_exp squared (vnth coef_list jj) + pow_exp squared (vnth coef_list (S jj)))
          * (vnth t_arr (S jj) - vnth t_arr jj) / 2)).
(** opti.py:299-342 [_get_cost_obj_trap_int_cas], called on [arr]; [mode] only
    sets the number of symbols (opti.py:328 does not pass it on). *)
Definition trap_int_cas (scheme : string) (N order : nat) (mode : string) (squared : bool) (arr : mat)
  : Res vec :=
  let scheme := strip "BU_" scheme in
  do N_arr <-
    (if (mode =? "x")%string then
       if mem scheme ["JG"; "LG2"]%string then Ok (N + 2)%nat
       else if mem scheme ["LG"; "LGR"; "JGR"; "LGR_inv"; "JGR_inv"]%string then Ok (N + 1)%nat
       else if mem scheme ["LGL"; "JGL"; "D2"]%string then Ok N
       else Err NotImplementedError
     else if (mode =? "u")%string then Ok N
     else if (mode =? "complete")%string then
       if mem scheme ["JG"; "LG2"; "LG"]%string then Ok (N + 2)%nat
       else if mem scheme ["LGR"; "JGR"; "LGR_inv"; "JGR_inv"]%string then Ok (N + 1)%nat
       else if mem scheme ["LGL"; "JGL"; "D2"]%string then Ok N
       else Err NotImplementedError
     else Err UnboundLocalError);
  if (length arr =? N_arr)%nat
  then mapm (fun j => trap_int scheme N order squared (mcol j arr)) (seq 0 (mwidth arr))
  else Err RuntimeError.
(** opti.py:903-941, 1367-1400, 1719-1750 [trapz_cost], the same code in the
    three classes *)
Definition trapz_cost (p : ps_problem) (n_arr : nat) (arr : mat) (squared : bool) : Res R :=
  let dt := ps_t_end p - ps_t_start p in
  do mode <- (if (length arr =? ps_n_coll p)%nat then Ok "u"%string
              else if (length arr =? n_arr)%nat then Ok "x"%string else Err ValueError);
  do r <- trap_int_cas (ps_scheme p) (ps_n_coll p) (ps_order p) mode squared arr;
  Ok (dt * sum2 r).

(** ** Multi-segment problems (opti.py:2623-2769) *)

(** What [opti_setup] stores that the costs read: the durations h_arr and the
    numbers of collocation points. *)
(** opti.py:2623-2661 [u_sq_cost]; [u_col] is opti_lists["u_col"]. *)
Definition ph_u_sq_cost (scheme : string) (h_arr : vec) (point_structure : list nat) (u_col : list mat)
  : Res R :=
  do terms <- mapm (fun seg_ii =>
      do r <- quad_int scheme (nth seg_ii point_structure O) 2 true "u" (nth seg_ii u_col []);
      Ok (vnth h_arr seg_ii * sum2 r)) (seq 0 (length point_structure));
  Ok (vsum terms).

(** opti.py:2711-2721: the rows of each segment of an array with one row per
    collocation point (d1 = d2 = 0) or per state point (d1 = 2, d2 = -1; [back]
    is -d2). *)
Fixpoint seg_rows {A} (d1 back : nat) (ii_inf : nat) (point_structure : list nat) (arr : list A)
  : list (list A) :=
  match point_structure with
  | [] => []
  | n :: rest =>
      let ii_sup := (ii_inf + n + d1)%nat in
      slice ii_inf ii_sup arr :: seg_rows d1 back (ii_sup - back) rest arr
  end.
(** opti.py:2663-2727 [quad_cost].  The call
    [_get_cost_obj_quad_int_cas(scheme, _n_coll, squared, mode)] binds squared
    to order and mode to squared: order is 0 or 1, the exponent is 2 (a
    non-empty string is true) and the mode is the default "u".  (sympy accepts
    the Jacobi parameter order - 1 = -1; the model uses 0 then, so for Jacobi
    schemes and squared=False it describes a slightly different set of
    points.) *)
Definition ph_quad_cost (scheme : string) (n_arr : nat) (h_arr : vec) (point_structure : list nat)
  (arr : mat) (squared : bool) : Res R :=
  let N_arr := length arr in
  do (d1, back) <-
    (if (N_arr =? list_sum point_structure)%nat then Ok (0, 0)%nat
     else if (N_arr =? n_arr)%nat then Ok (2, 1)%nat else Err ValueError);
  let u_coll := seg_rows d1 back 0 point_structure arr in
  do terms <- mapm (fun seg_ii =>
      do r <- quad_int scheme (nth seg_ii point_structure O) (if squared then 1 else 0)%nat true "u"
                (nth seg_ii u_coll []);
      Ok (vnth h_arr seg_ii * sum2 r)) (seq 0 (length point_structure));
  Ok (vsum terms).
(** opti.py:2729-2769 [trapz_cost] of the multi-segment class reads n_coll,
    which no method of that class sets. *)
Definition ph_trapz_cost (arr : mat) (squared : bool) : Res R := Err AttributeError.
End Ps.
