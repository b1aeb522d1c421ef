(** Model of chords/analysis.py, part 2: dynamic_error_implicit (757-965),
    F_point (991-1133), quad_problem (1136-1192) and doub_quad_problem
    (1195-1260).  Warnings are left out. *)
From Coq Require Import String.
From Verif Require Import Prelude Mat PwModel PwInterpModel AnalysisModel.
Open Scope R_scope.
Open Scope vec_scope.
Open Scope list_scope.

(** ** Dynamics that can raise *)
(** The functions of PwInterpModel.v and AnalysisModel.v for a function F that
    can raise an exception. *)
Section Raising.
Variable u_other : string -> R -> Res vec.
Variable hermite : list R -> list vec -> list vec -> R -> vec.
Context {P : Type}.
Definition raising : Type := vec -> vec -> P -> Res vec.

(** piecewise.py:1882-1956 [_calculate_missing_arrays] *)
Definition calculate_missing_r (X U : list vec) (h : R) (p : P) (F : raising) (Xd : option (list vec))
    (scheme u_scheme : string) (sp : sparams) : Res (list vec * sparams) :=
  do Xd <- match Xd with
           | Some d => Ok d
           | None => mapm (fun i => do x <- pyget X (Z.of_nat i); do u <- pyget U (Z.of_nat i); F x u p) (seq 0 (length X))
           end;
  if contains "hs" scheme && negb (scheme =? "hs_scipy")%string then
    match sp_x_dot_c sp with
    | Some _ => Ok (Xd, sp)
    | None =>
        do X_c <- match sp_x_c sp with
                  | Some c => Ok c
                  | None => mapm (fun i =>
                      do x <- pyget X (Z.of_nat i); do x_n <- pyget X (Z.of_nat (i + 1));
                      do xd <- pyget Xd (Z.of_nat i); do xdn <- pyget Xd (Z.of_nat (i + 1));
                      Ok (midpoint_of scheme x x_n xd xdn h)) (seq 0 (length X - 1))
                  end;
        let sp1 :=
          match sp_u_c sp with
          | None => if contains "parab" u_scheme then sp
                    else Build_sparams (sp_order sp) (sp_x_dot_c sp) (sp_x_c sp)
                      (Some (if contains "j" scheme
                             then map2 (fun a b => (6/10) *v a +v (4/10) *v b) (butlastn 1 U) (skipn 1 U)
                             else mid_controls U))
          | Some _ => sp
          end in
        do U_c <- getkey (sp_u_c sp1);
        do XDC <- mapm (fun i => do x <- pyget X_c (Z.of_nat i); do u <- pyget U_c (Z.of_nat i); F x u p)
                    (seq 0 (length X_c));
        Ok (Xd, Build_sparams (sp_order sp1) (Some XDC) (sp_x_c sp1) (sp_u_c sp1))
    end
  else Ok (Xd, sp).
(** piecewise.py:1959-2114 [interpolated_array], with scheme_params and F given *)
Definition interpolated_array_r (X U : list vec) (h : R) (t_array : list R) (p : P) (F : raising)
    (Xd : option (list vec)) (scheme u_scheme : string) (sp : sparams) : Res (list vec * list vec * sparams) :=
  if negb (mem scheme supported_schemes) then Err ValueError
  else if negb (mem u_scheme supported_u_schemes) then Err ValueError
  else if contains "j" scheme && (u_scheme =? "parab")%string then Err ValueError
  else if contains "j" u_scheme && negb (contains "j" scheme) then Err ValueError
  else
    do _ <- (if contains "hsn" scheme || contains "trapz_n" scheme
             then match sp_order sp with None => Err ValueError | Some _ => Ok tt end else Ok tt);
    do (U', old_t) <- prepare_interp X U h t_array;
    do (Xd', sp1) <- calculate_missing_r X U' h p F Xd scheme u_scheme sp;
    do nU <- interpolate_u u_other U' old_t t_array u_scheme sp1;
    if (scheme =? "hs_scipy")%string
    then Ok (map (hermite old_t X Xd') t_array, nU, sp1)
    else do nX <- mapm (fun t => newpoint X Xd' h t scheme sp1) t_array; Ok (nX, nU, sp1).
(** piecewise.py:2382-2496 [interpolated_array_derivative], likewise *)
Definition interpolated_array_derivative_r (X U : list vec) (h : R) (t_array : list R) (p : P) (F : raising)
    (Xd : option (list vec)) (scheme : string) (order : nat) (sp : sparams) : Res (list vec * sparams) :=
  if negb (mem scheme supported_schemes) then Err ValueError
  else
    do (U', old_t) <- prepare_interp X U h t_array;
    do (Xd', sp1) <- calculate_missing_r X U' h p F Xd scheme "None" sp;
    do nX <- (if (scheme =? "hs_scipy")%string then spline_derivative old_t X Xd' order t_array
              else mapm (fun t => newpoint_der X Xd' h t scheme order sp1) t_array);
    Ok (nX, sp1).

(** ** analysis.py:757-965 [dynamic_error_implicit] *)
(** numpy.linalg.solve *)
Variable solve : mat -> vec -> vec.
(** analysis.py:890-891: generate_G(M, F_impl), of order 2, then expand_F of the
    order given *)
Definition implicit_F (M : vec -> P -> mat) (F_impl : vec -> vec -> P -> vec) (order : nat) : raising := fun x u params =>
  do a <- generate_G solve M F_impl 2 x u params;
  expand_F (fun _ _ _ => a) order x u params.
Definition dynamic_error_implicit (x_arr u_arr : mat) (t_end : R) (params : P) (F_impl : vec -> vec -> P -> vec) (M : vec -> P -> mat)
    (X_dot : option mat) (scheme u_scheme : string) (scheme_params : option sparams) (n_interp order : nat) (mode : string)
    : Res (list (list (list vec)) * sparams) :=
  let sp := match scheme_params with None => no_params | Some d => d end in
  let N := INR (length x_arr) - 1 in
  let dim := (mwidth x_arr / order)%nat in
  let h := t_end / N in
  let t_interp := linspace 0 t_end n_interp in
  let F := implicit_F M F_impl order in
  let sp := Build_sparams (Some order) (sp_x_dot_c sp) (sp_x_c sp) (sp_u_c sp) in
  do (x_interp, u_interp, sp) <- interpolated_array_r x_arr u_arr h t_interp params F X_dot scheme u_scheme sp;
  do ders <- mapm (fun jj =>
      do (a, _) <- interpolated_array_derivative_r x_arr u_arr h t_interp params F X_dot scheme jj sp; Ok a) (seq 1 order);
  do errs <- mapm (fun k =>
      let x := nth k x_interp [] in
      let u := nth k u_interp [] in
      let x_and_derivs := get_x_divisions x order :: map (fun a => get_x_divisions (nth k a []) order) ders in
      let q_and_d := flat_map (fun jj => nth 0 (nth jj x_and_derivs []) []) (seq 0 order) ++ skipn (dim * order) x in
      do x_in_f <- (if (mode =? "q")%string then Ok q_and_d
                    else if (mode =? "x")%string then Ok x else Err ValueError);
      do f_all <- F x_in_f u params;
      let f := lastn dim f_all in
      let x0 := get_x_divisions x order ++ [f] in
      Ok (map (fun jj => map (fun ii =>
            nth ii (nth (jj + 1) x_and_derivs []) [] -v nth (ii + jj + 1) x0 [])
            (seq 0 (order - jj))) (seq 0 order)))
    (seq 0 n_interp);
  Ok (errs, sp).
End Raising.

(** ** The value of F at a time *)
Section Points.
Context {P : Type}.
(** scipy's CubicHermiteSpline, and its derivative *)
Variables hermite hermite_der : list R -> list vec -> list vec -> R -> vec.
(** scipy's quad of a python function, with its break points *)
Variable quad : (R -> Res R) -> R -> R -> list R -> Res R.
(** A call of _newpoint_der with eight arguments: it has seven
    (piecewise.py:2326), so python refuses the call. *)
Definition newpoint_der_of_8 (_ : list vec) (_ : list vec) (_ _ : R) (_ : P) (_ : string) (_ : nat) (_ : sparams) : Res vec := Err TypeError.
(** analysis.py:991-1133 [F_point], for a dictionary scheme_params without
    "X_dot": F_point stores x_dot_arr under another name (1092), so between two
    samples "min_err" and "pinv_dyn" are a KeyError.  Rows of X have an even
    number of entries: x_q[dim:] = x_d[:dim] needs it. *)
Definition F_point (x_arr u_arr : mat) (t_arr : vec) (t : R) (params : P) (F : vec -> vec -> P -> vec)
    (x_dot_arr : option mat) (scheme u_scheme : string) (scheme_params : option sparams) : Res vec :=
  let sp := match scheme_params with None => no_params | Some d => d end in
  let N := INR (length x_arr) - 1 in
  let dim := (mwidth x_arr / 2)%nat in
  let h := (last t_arr 0 - vnth t_arr 0) / N in
  do (x_dot_arr, sp) <- calculate_missing x_arr u_arr h params (Some F) x_dot_arr scheme u_scheme sp;
  do x <- (if (scheme =? "hs_scipy")%string then Ok (hermite t_arr x_arr x_dot_arr t)
           else newpoint x_arr x_dot_arr h t scheme sp);
  do u <- newpoint_u (fun _ _ => Err KeyError) u_arr h t u_scheme sp;
  do x_d <- (if (scheme =? "hs_scipy")%string then Ok (hermite_der t_arr x_arr x_dot_arr t)
             else newpoint_der_of_8 x_arr x_dot_arr h t params scheme 1 sp);
  let x_q := firstn dim x ++ firstn dim x_d in
  Ok (skipn dim (F x_q u params)).
(** ndarray[ii] of a vector *)
Definition item (ii : nat) (v : vec) : Res R := match nth_error v ii with Some x => Ok x | None => Err IndexError end.
(** t_arr[1:-1], or no break points *)
Definition break_points (discont_at_t_arr : bool) (t_arr : vec) : list R :=
  if discont_at_t_arr then butlastn 1 (skipn 1 t_arr) else [].
(** analysis.py:1136-1192 [quad_problem]; lru_cache keeps the values of a function
    that always gives the same. *)
Definition quad_problem (x_arr u_arr : mat) (t_arr : vec) (params : P) (F : vec -> vec -> P -> vec) (scheme u_scheme : string)
    (scheme_params : sparams) (x_dot_arr : option mat) (discont_at_t_arr : bool) : Res vec :=
  let dim := (mwidth x_arr / 2)%nat in
  let h := (last t_arr 0 - vnth t_arr 0) / (INR (length t_arr) - 1) in
  do (x_dot_arr, sp) <- calculate_missing x_arr u_arr h params (Some F) x_dot_arr scheme u_scheme scheme_params;
  let dummy_F t :=
    do E <- F_point x_arr u_arr t_arr t params F None scheme u_scheme (Some sp);
    do x_d <- newpoint_der_of_8 x_arr x_dot_arr h t params scheme 1 sp;
    Ok (map Rabs (E -v skipn dim x_d)) in
  mapm (fun ii => quad (fun t => do E <- dummy_F t; item ii E) (vnth t_arr 0) (last t_arr 0) (break_points discont_at_t_arr t_arr))
    (seq 0 dim).
(** analysis.py:1195-1260 [doub_quad_problem] *)
Definition doub_quad_problem (x_arr u_arr : mat) (t_arr : vec) (params : P) (F : vec -> vec -> P -> vec) (scheme u_scheme : string)
    (scheme_params : option sparams) (discont_at_t_arr : bool) : Res vec :=
  let dim := (mwidth x_arr / 2)%nat in
  let dummy_F t := F_point x_arr u_arr t_arr t params F None scheme u_scheme scheme_params in
  let points := break_points discont_at_t_arr t_arr in
  mapm (fun ii =>
      let dummy_integ t := quad (fun s => do E <- dummy_F s; item ii E) (vnth t_arr 0) t points in
      do E <- quad dummy_integ (vnth t_arr 0) (last t_arr 0) points;
      Ok (vnth (last x_arr []) ii - vnth (nth 0 x_arr []) ii - vnth (nth 0 x_arr []) (dim + ii) * last t_arr 0 - E))
    (seq 0 dim).
End Points.
