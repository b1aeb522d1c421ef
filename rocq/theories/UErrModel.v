(** Interpolated controls that explain the motion: u_scheme "min_err" and
    "pinv_dyn" of chords/piecewise.py. *)
From Coq Require Import String.
From Verif Require Import Prelude PwModel PwInterpModel.
Open Scope string_scope.
Open Scope list_scope.
Open Scope R_scope.
Open Scope vec_scope.

Section UErr.
Context {P : Type}.
(** scipy.optimize.minimize: the point [x] of its result, for a function and a
    first guess. *)
Variable minimize : (vec -> R) -> vec -> vec.
(** scipy's CubicHermiteSpline *)
Variable hermite : list R -> list vec -> list vec -> R -> vec.

(** piecewise.py:1670-1685 [_u_min_err_opti_step] *)
Definition u_min_err_opti_step (u x x_dot : vec) (F : vec -> vec -> P -> vec) (params : P) : R :=
  let dim := (length x / 2)%nat in
  let f := skipn dim (F x u params) in
  let a := skipn dim x_dot in
  vsum (map Rabs (f -v a)).

(** piecewise.py:1716-1741: the two branches of [_newpoint_u], after the
    samples u and u_n are read.  The keys "X", "X_dot", "scheme" and "params" are
    there (2093-2097); "F" is there for "min_err" (2103); [pinv_f] is the
    caller's key "pinv_f". *)
Definition explaining_u (X X_dot U : list vec) (h : R) (params : P) (F : option (vec -> vec -> P -> vec))
  (pinv_f : option (vec -> vec -> vec -> P -> vec)) (scheme : string) (sp : sparams) (u_scheme : string) (t : R) : Res vec :=
  let n := seg_index t h in
  let tau := seg_tau t h in
  do u <- pyget U n; do u_n <- pyget U (n + 1)%Z;
  if u_scheme =? "min_err" then
    do F <- getkey F;
    do x_interp <- newpoint X X_dot h t scheme sp;
    do x_dot_interp <- newpoint_der X X_dot h t scheme 1 sp;
    let xi := tau / h in
    let u_0 := xi *v u_n +v (1 - xi) *v u in
    Ok (minimize (fun w => u_min_err_opti_step w x_interp x_dot_interp F params) u_0)
  else
    do x_interp <- newpoint X X_dot h t scheme sp;
    do x_dot_interp <- newpoint_der X X_dot h t scheme 1 sp;
    do pinv_F <- getkey pinv_f;
    let dim := (length x_interp / 2)%nat in
    Ok (pinv_F (firstn dim x_interp) (skipn dim x_interp) (skipn dim x_dot_interp) params).

(** piecewise.py:1959-2114 [interpolated_array] with these controls.  The step
    of [interpolate_u] (1867) is computed from the times. *)
Definition interpolated_array_u (X U : list vec) (h : R) (t_array : list R) (p : P)
  (F : option (vec -> vec -> P -> vec)) (Xd : option (list vec))
  (scheme u_scheme : string) (sp : option sparams) (pinv_f : option (vec -> vec -> vec -> P -> vec))
  : Res (list vec * list vec * sparams) :=
  if negb (mem scheme supported_schemes) then Err ValueError
  else if negb (mem u_scheme supported_u_schemes) then Err ValueError
  else if contains "j" scheme && (u_scheme =? "parab") then Err ValueError
  else if contains "j" u_scheme && negb (contains "j" scheme) then Err ValueError
  else
    do _ <- (if contains "hsn" scheme || contains "trapz_n" scheme then
               match sp with
               | None => Err TypeError
               | Some d => match sp_order d with None => Err ValueError | Some _ => Ok tt end
               end
             else Ok tt);
    let sp0 := match sp with None => no_params | Some d => d end in
    do (U', old_t) <- prepare_interp X U h t_array;
    do (Xd', sp1) <- calculate_missing X U' h p F Xd scheme u_scheme sp0;
    do _ <- match F with
            | None => if u_scheme =? "min_err" then Err ValueError else Ok tt
            | Some _ => Ok tt
            end;
    do tl <- pyget old_t (-1)%Z; do t0 <- pyget old_t 0%Z;
    let h_u := (tl - t0) / (INR (length old_t) - 1) in
    do nU <- interpolate_u (explaining_u X Xd' U' h_u p F pinv_f scheme sp1) U' old_t t_array u_scheme sp1;
    if scheme =? "hs_scipy"
    then Ok (map (hermite old_t X Xd') t_array, nU, sp1)
    else do nX <- mapm (fun t => newpoint X Xd' h t scheme sp1) t_array;
         Ok (nX, nU, sp1).
End UErr.
