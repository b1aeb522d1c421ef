(** Properties C53, C54 and C55: interpolations of results and dynamic errors.
    Only statements. *)
From Coq Require Import Reals List String.
From Verif Require Import Prelude Poly PolyInterp Mat PwModel PwSpec PwInterpModel PwInterpSpec PsModel JacobiFacts PsSpec UtilModel UtilSpec BuTdModel BuTdSpec
  PhModel PhSpec PhExamples AnalysisModel AnalysisSpec AnalysisProofs AnalysisErrProofs AnalysisPwProofs AnalysisLiveProofs AnalysisExamples.
Import ListNotations.
Open Scope R_scope.
Open Scope vec_scope.
Open Scope list_scope.

(** ** C54: interpolation of a result with several segments *)

(** A solution in top-down mode, whose segments are the motions Ps (C40 says that every solution is): there are as many samples as asked, increasing, from the start, each with the values and derivatives of the motion of the segment that contains it.  Missing: the last sample is not always the end (below).  With given times, the samples are at those times. *)
Theorem C54_top_down_partial :
  forall rr, real_roots_ok rr -> forall (lg : nat -> vec * vec) (u_other : string -> R -> Res vec) (hermite : list R -> list vec -> list vec -> R -> vec) (dyn : vec -> vec -> vec -> vec -> vec)
    (p : ph_problem) (knots : vec) (ns : list nat) (w : ph_values) (nu : nat) (t : vec),
  length ns = (length knots + 1)%nat -> ph_t_start p < ph_t_end p -> good_knots (ph_t_start p) (ph_t_end p) knots ->
  Forall (enough_points (ph_scheme p)) ns -> (1 <= ph_order p)%nat -> (1 <= ph_n_q p)%nat ->
  shaped (ph_n_arr ns) (ph_order p * ph_n_q p) (hv_x w) -> shaped (ph_n_arr ns) (ph_order p * ph_n_q p) (hv_x_d w) ->
  shaped (ph_n_arr ns) nu (hv_u w) -> ph_t_arr rr p knots ns = Ok t -> forall Ps Us : list (list (list R)),
  ph_kind p = Ph_td -> In (ph_scheme p) bt_schemes ->
  (forall s, (s < length ns)%nat -> shaped (nth s ns 0%nat + ph_order p) (ph_n_q p) (nth s (hv_q_constr w) [])) ->
  (forall s, (s < length ns)%nat ->
    segment_motion dyn (nth s ns 0%nat + ph_order p) (ph_n_q p) (ph_order p) t ns (hv_x w) (hv_x_d w) (hv_u w) (hv_lam w) s (nth s Ps []) /\
    forall i, (i < nth s ns 0 + ph_order p)%nat ->
      mrow i (nth s (hv_q_constr w) []) = state_at (nth s Ps [])
        (vnth (tau_to_t_points (LGL rr (nth s ns 0%nat + ph_order p)) (vnth t (knot_row ns s)) (vnth t (knot_row ns (s + 1)))) i)) ->
  segment_controls t ns (hv_u w) nu Us ->
  exists r, saved rr p knots ns w = Ok r /\
    covers (knot_times (ph_t_start p) (ph_t_end p) knots)
      (fun n g => interpolation_ph rr lg u_other hermite r (ph_order p) (ph_order p) None None n g) (motion_sample (ph_order p) Ps Us).
Proof. exact (td_covers). Qed.
Print Assumptions C54_top_down_partial.

(** The same in bottom-up mode.  Missing also: Jacobi schemes of order other than 2, whose controls are interpolated as if at other times. *)
Theorem C54_bottom_up_partial :
  forall rr, real_roots_ok rr -> forall (lg : nat -> vec * vec) (u_other : string -> R -> Res vec) (hermite : list R -> list vec -> list vec -> R -> vec) (dyn : vec -> vec -> vec -> vec -> vec)
    (p : ph_problem) (knots : vec) (ns : list nat) (w : ph_values) (nu : nat) (t : vec),
  length ns = (length knots + 1)%nat -> ph_t_start p < ph_t_end p -> good_knots (ph_t_start p) (ph_t_end p) knots ->
  Forall (enough_points (ph_scheme p)) ns -> (1 <= ph_order p)%nat -> (1 <= ph_n_q p)%nat ->
  shaped (ph_n_arr ns) (ph_order p * ph_n_q p) (hv_x w) -> shaped (ph_n_arr ns) (ph_order p * ph_n_q p) (hv_x_d w) ->
  shaped (ph_n_arr ns) nu (hv_u w) -> ph_t_arr rr p knots ns = Ok t -> forall Ps Us : list (list (list R)),
  leggauss_ok lg -> ph_kind p = Ph_bu -> In (ph_scheme p) bt_schemes ->
  (ph_order p = 2%nat \/ ~ In (ph_scheme p) jacobi_schemes) ->
  (forall s, (s < length ns)%nat ->
    segment_motion dyn (nth s ns 0%nat + ph_order p) (ph_n_q p) (ph_order p) t ns (hv_x w) (hv_x_d w) (hv_u w) (hv_lam w) s (nth s Ps [])) ->
  segment_controls t ns (hv_u w) nu Us ->
  exists r, saved rr p knots ns w = Ok r /\
    covers (knot_times (ph_t_start p) (ph_t_end p) knots)
      (fun n g => interpolation_ph rr lg u_other hermite r (ph_order p) (ph_order p) None None n g) (motion_sample (ph_order p) Ps Us).
Proof. exact (bu_covers). Qed.
Print Assumptions C54_bottom_up_partial.

(** The same in pseudospectral mode, order 2.  Missing also: the schemes of [half_open] (below). *)
Theorem C54_pseudospectral_partial :
  forall rr, real_roots_ok rr -> forall (lg : nat -> vec * vec) (u_other : string -> R -> Res vec) (hermite : list R -> list vec -> list vec -> R -> vec) (dyn : vec -> vec -> vec -> vec -> vec)
    (p : ph_problem) (knots : vec) (ns : list nat) (w : ph_values) (nu : nat) (t : vec),
  length ns = (length knots + 1)%nat -> ph_t_start p < ph_t_end p -> good_knots (ph_t_start p) (ph_t_end p) knots ->
  Forall (enough_points (ph_scheme p)) ns -> (1 <= ph_order p)%nat -> (1 <= ph_n_q p)%nat ->
  shaped (ph_n_arr ns) (ph_order p * ph_n_q p) (hv_x w) -> shaped (ph_n_arr ns) (ph_order p * ph_n_q p) (hv_x_d w) ->
  shaped (ph_n_arr ns) nu (hv_u w) -> ph_t_arr rr p knots ns = Ok t -> forall Ps Us : list (list (list R)),
  ph_kind p = Ph_ps -> ph_order p = 2%nat -> In (ph_scheme p) all_schemes -> ~ In (ph_scheme p) half_open ->
  (forall s, (s < length ns)%nat -> exists n, n_col_to_n_nodes (ph_scheme p) (nth s ns 0%nat) = Ok n /\
    segment_state_motion dyn n (ph_order p * ph_n_q p) t ns (hv_x w) (hv_x_d w) (hv_u w) (hv_lam w) s (nth s Ps [])) ->
  segment_controls t ns (hv_u w) nu Us ->
  exists r, saved rr p knots ns w = Ok r /\
    covers (knot_times (ph_t_start p) (ph_t_end p) knots)
      (fun n g => interpolation_ph rr lg u_other hermite r (ph_order p) (ph_order p) None None n g) (state_sample (ph_n_q p) Ps Us).
Proof. exact (ps_covers). Qed.
Print Assumptions C54_pseudospectral_partial.

(** The mass with a constant force, q = t^2, in two segments. *)
Example C54_example :
  forall rr, real_roots_ok rr -> forall (lg : nat -> vec * vec) (u_other : string -> R -> Res vec) (hermite : list R -> list vec -> list vec -> R -> vec) s, In s bt_schemes ->
  exists t r, ph_t_arr rr (mass_problem Ph_td s) [1] [2; 3]%nat = Ok t /\
  saved rr (mass_problem Ph_td s) [1] [2; 3]%nat (mass_motion rr [2; 3]%nat t) = Ok r /\
  covers [0; 1; 3] (fun n g => interpolation_ph rr lg u_other hermite r 2 2 None None n g)
    (motion_sample 2 [[[0; 0; 1]]; [[0; 0; 1]]] [[[2]]; [[2]]]).
Proof. exact (mass_covers). Qed.

(** It meets the hypotheses: three samples or more reach both segments. *)
Example C54_reached_example : forall n, (3 <= n)%nat -> all_reached [0; 1; 3] n.
Proof. exact (mass_reached). Qed.

(** A number of samples that leaves a segment with one is refused: here the times are 0 and 3 and no time is in the second segment but its end. *)
Theorem C54_few_samples_refuted :
  forall rr, real_roots_ok rr -> forall (lg : nat -> vec * vec) (u_other : string -> R -> Res vec) (hermite : list R -> list vec -> list vec -> R -> vec) s, In s bt_schemes ->
  exists t r e, ph_t_arr rr (mass_problem Ph_td s) [1] [2; 3]%nat = Ok t /\
  saved rr (mass_problem Ph_td s) [1] [2; 3]%nat (mass_motion rr [2; 3]%nat t) = Ok r /\
  interpolation_ph rr lg u_other hermite r 2 2 None None 2 None = Err e.
Proof. exact (mass_refused). Qed.
Print Assumptions C54_few_samples_refuted.

(** With the schemes of [half_open] no sample is at the start or at the end. *)
Theorem C54_not_extended_refuted :
  forall rr (lg : nat -> vec * vec) (u_other : string -> R -> Res vec) (hermite : list R -> list vec -> list vec -> R -> vec),
  real_roots_ok rr -> forall (p : ph_problem) (knots : vec) (ns : list nat) (w : ph_values),
  length ns = (length knots + 1)%nat -> ph_t_start p < ph_t_end p -> good_knots (ph_t_start p) (ph_t_end p) knots ->
  In (ph_scheme p) half_open -> ph_kind p = Ph_ps -> Forall (enough_points (ph_scheme p)) ns ->
  forall r order scheme_order x_interp u_interp n rows segs,
  saved rr p knots ns w = Ok r ->
  interpolation_ph rr lg u_other hermite r order scheme_order x_interp u_interp n None = Ok (rows, segs) ->
  forall d, In d rows -> exists t, get KT d = Ok [t] /\ ph_t_start p < t < ph_t_end p.
Proof. exact (not_extended). Qed.
Print Assumptions C54_not_extended_refuted.

(** A result of an equispaced scheme that starts after time 0 cannot be interpolated. *)
Theorem C54_late_start_refuted :
  forall rr (lg : nat -> vec * vec) (u_other : string -> R -> Res vec) (hermite : list R -> list vec -> list vec -> R -> vec)
    r order scheme_order x_interp u_interp n_interp x_c x_d_c u_c t0 tf,
  r_kind r = Equispaced x_c x_d_c u_c -> pyget (r_t r) 0%Z = Ok t0 -> pyget (r_t r) (-1)%Z = Ok tf ->
  length (r_t r) = length (r_x r) -> (2 <= length (r_x r))%nat ->
  (length (r_u r) = length (r_x r) \/ length (r_x r) = length (r_u r) + 1)%nat ->
  (1 <= order)%nat -> (mwidth (r_x r) mod order = 0)%nat -> (2 <= n_interp)%nat ->
  t0 < tf -> (tf - t0) / (INR (length (r_x r)) - 1) / 1000000000 < t0 ->
  interpolation1 rr lg u_other hermite r order scheme_order x_interp u_interp n_interp None = Err ValueError.
Proof. exact (late_start). Qed.
Print Assumptions C54_late_start_refuted.

(** The names of the columns of an interpolation are different strings for different quantities. *)
Theorem C54_names :
  forall a b, key_name a = key_name b -> a = b.
Proof. exact (key_name_inj). Qed.
Print Assumptions C54_names.

Example C54_names_example : key_name (KQ 1 2) = "v_d_d"%string /\ key_name (KQ 8 0) = "d8q"%string.
Proof. split; reflexivity. Qed.

(** ** C53: dynamic errors *)

(** dynamic_error of a solution of a piecewise scheme: at each sample the errors are those of the trajectory Y that the solution describes, with its value x and its derivatives ys there, as defined by [errors_are]. *)
Theorem C53_piecewise :
  forall P (F : vec -> vec -> P -> vec) (p : P) u_other hermite scheme u_scheme (M n order dim : nat) (t_end : R)
    (X U : list vec) (sp0 : option sparams) n_interp mode errs sp',
  let sp := Build_sparams (Some order) None None (match sp0 with Some d => sp_u_c d | None => None end) in
  let h := t_end / (INR (length X) - 1) in
  (forall d, sp0 = Some d -> sp_x_dot_c d = None /\ sp_x_c d = None) ->
  scheme_blocks scheme (Some order) = Some M -> (0 < M)%nat -> (0 < n)%nat -> order_form M n F p -> 0 < t_end ->
  (2 <= length X)%nat -> (forall x, In x X -> length x = (M * n)%nat) ->
  (0 < order)%nat -> (order * dim = M * n)%nat -> (forall d, (d <= order)%nat -> dmax_of scheme d) ->
  steps_hold F p scheme M n h X (full_controls X U) sp ->
  dynamic_error u_other hermite X U t_end p F None scheme u_scheme sp0 n_interp order mode = Ok (errs, sp') ->
  exists (Y : R -> vec) (Z : nat -> R -> vec) nX nU sp1,
    on_samples X h Y /\ pieces F p scheme M n h X (full_controls X U) sp Y Z /\
    interpolated_array u_other hermite X U h (linspace 0 t_end n_interp) p (Some F) None scheme u_scheme (Some sp) = Ok (nX, nU, sp1) /\
    length errs = n_interp /\
    forall k, (k < n_interp)%nat -> exists x ys,
      let t := vnth (linspace 0 t_end n_interp) k in let u := nth k nU [] in
      is_value_of X h Y t x /\ length ys = order /\
      (forall d, (d < order)%nat -> is_derivative_of (M * n) X h Z (d + 1) t (nth d ys [])) /\
      (mode = "q" \/ mode = "x")%string /\
      errors_are dim order x ys
        (lastn dim (F (if (mode =? "q")%string then flat_map (fun d => blk dim 0 (nth d (x :: ys) [])) (seq 0 order) else x) u p))
        (nth k errs []).
Proof. exact (@dynamic_error_ok). Qed.
Print Assumptions C53_piecewise.

(** It does return, with linear controls, for any samples. *)
Theorem C53_piecewise_returns :
  forall P (F : vec -> vec -> P -> vec) (p : P) u_other hermite scheme (M order : nat) (t_end : R) (X U : list vec) (sp0 : option sparams) n_interp mode,
  (forall d, sp0 = Some d -> sp_x_dot_c d = None /\ sp_x_c d = None /\ forall c, sp_u_c d = Some c -> (length X <= length c + 1)%nat) ->
  scheme_blocks scheme (Some order) = Some M -> 0 < t_end -> (2 <= length X)%nat ->
  (length U = length X \/ length X = (length U + 1)%nat) -> (1 <= n_interp)%nat ->
  (forall d, (d <= order)%nat -> dmax_of scheme d) -> In mode ["q"; "x"]%string ->
  exists r, dynamic_error u_other hermite X U t_end p F None scheme "lin" sp0 n_interp order mode = Ok r.
Proof. exact (@dynamic_error_live). Qed.
Print Assumptions C53_piecewise_returns.

Example C53_piecewise_example :
  forall u_other hermite n, (1 <= n)%nat -> exists r,
  dynamic_error u_other hermite [[0]; [1]; [2]] [[1]; [1]; [1]] 2 tt line_F None "trapz" "lin" None n 1 "x" = Ok r.
Proof. exact (line_error). Qed.

Example C53_piecewise_hypotheses :
  order_form 1 1 line_F tt /\
  steps_hold line_F tt "trapz" 1 1 (2 / (INR 3 - 1)) [[0]; [1]; [2]] (full_controls [[0]; [1]; [2]] [[1]; [1]; [1]])
   (Build_sparams (Some 1%nat) None None None).
Proof. exact (line_hypotheses). Qed.

(** An error is zero exactly when the equation holds. *)
Theorem C53_zero :
  forall a b : vec, length a = length b -> (a -v b = repeat 0 (length a) <-> a = b).
Proof. exact (vsub_zero). Qed.
Print Assumptions C53_zero.

(** Errors of samples of motions (those of C54): the dynamic error is the highest derivative of the motion less the dynamics, and the compatibility errors are zero. *)
Theorem C53_segments :
  forall (K : list R) (n : nat) (Tm : nat -> R) (rows : list row) (F : vec -> vec -> vec) (mode : string) (nq : nat) (Ps Us : list (list (list R))),
  In mode ["q"; "x"]%string -> forall M, (1 <= M)%nat -> (forall s, (s + 1 < length K)%nat -> length (nth s Ps []) = nq) ->
  sampled K n (motion_sample M Ps Us) Tm rows ->
  exists rows' errs, dynamic_errors_from_interp rows F mode M = Ok (rows', errs) /\ length errs = n /\
    forall m e0, (m < n)%nat -> exists s, (s + 1 < length K)%nat /\ vnth K s <= Tm m <= vnth K (s + 1) /\
      (Tm m = vnth K (s + 1) -> (s + 2 = length K)%nat) /\
      e_dyn (nth m errs e0) = rate_n_at M (nth s Ps []) (Tm m) -v lastn nq (F (full_state M (nth s Ps []) (Tm m)) (state_at (nth s Us []) (Tm m))) /\
      e_compat (nth m errs e0) = repeat (repeat 0 nq) (M - 1).
Proof. exact (motion_errors). Qed.
Print Assumptions C53_segments.

(** The same for polynomials of the whole state: the compatibility error is the derivative of q less v. *)
Theorem C53_state_segments :
  forall (K : list R) (n : nat) (Tm : nat -> R) (rows : list row) (F : vec -> vec -> vec) (mode : string) (nq : nat) (Ps Us : list (list (list R))),
  In mode ["q"; "x"]%string -> (forall s, (s + 1 < length K)%nat -> length (nth s Ps []) = (2 * nq)%nat) ->
  sampled K n (state_sample nq Ps Us) Tm rows ->
  exists rows' errs, dynamic_errors_from_interp rows F mode 2 = Ok (rows', errs) /\ length errs = n /\
    forall m e0, (m < n)%nat -> exists s, (s + 1 < length K)%nat /\ vnth K s <= Tm m <= vnth K (s + 1) /\
      (Tm m = vnth K (s + 1) -> (s + 2 = length K)%nat) /\
      let x := state_at (nth s Ps []) (Tm m) in let u := state_at (nth s Us []) (Tm m) in
      let q_d := firstn nq (rate_at (nth s Ps []) (Tm m)) in
      e_dyn (nth m errs e0) = firstn nq (rate_n_at 2 (nth s Ps []) (Tm m)) -v
        lastn nq (F (if (mode =? "q")%string then firstn nq x ++ q_d else x) u) /\
      e_compat (nth m errs e0) = [q_d -v skipn nq x].
Proof. exact (state_errors). Qed.
Print Assumptions C53_state_segments.

(** Other modes are rejected. *)
Theorem C53_modes :
  forall F mode M B u t d x, (1 <= M)%nat -> shows M B u t d -> get (KX 0) d = Ok x -> ~ In mode ["q"; "x"]%string ->
  errors_from_row F mode M d = Err ValueError.
Proof. exact (bad_mode). Qed.
Print Assumptions C53_modes.

(** The errors of the mass are zero, in both modes. *)
Example C53_segments_example :
  forall rr, real_roots_ok rr -> forall (lg : nat -> vec * vec) (u_other : string -> R -> Res vec) (hermite : list R -> list vec -> list vec -> R -> vec) s n mode, In s bt_schemes -> In mode ["q"; "x"]%string -> (3 <= n)%nat ->
  exists t r rows segs rows' errs, ph_t_arr rr (mass_problem Ph_td s) [1] [2; 3]%nat = Ok t /\
  saved rr (mass_problem Ph_td s) [1] [2; 3]%nat (mass_motion rr [2; 3]%nat t) = Ok r /\
  interpolation_ph rr lg u_other hermite r 2 2 None None n None = Ok (rows, segs) /\
  dynamic_errors_from_interp rows (fun x u => [vnth x 1; vnth u 0]) mode 2 = Ok (rows', errs) /\ length errs = n /\
  forall m e0, (m < n)%nat -> e_dyn (nth m errs e0) = [0] /\ e_compat (nth m errs e0) = [[0]].
Proof. exact (mass_errors). Qed.

(** arr_mod is the Euclidean norm of each row ... *)
Theorem C53_norm :
  forall x, length (arr_mod x) = length x /\
  forall i, (i < length x)%nat -> 0 <= vnth (arr_mod x) i /\ vnth (arr_mod x) i * vnth (arr_mod x) i = vsum (map (fun a => a * a) (nth i x [])).
Proof. exact (arr_mod_ok). Qed.
Print Assumptions C53_norm.

(** ... zero when all the errors are. *)
Theorem C53_norm_zero :
  forall x i, (i < length x)%nat -> (vnth (arr_mod x) i = 0 <-> Forall (fun a => a = 0) (nth i x [])).
Proof. exact (arr_mod_zero). Qed.
Print Assumptions C53_norm_zero.

(** generate_G without multipliers: the solution of the system M a = F_impl. *)
Theorem C53_implicit :
  forall P solve (M : vec -> P -> mat) F_impl order x u (p : P), (0 < order)%nat ->
  length (solve (M x p) (F_impl x u p)) = (length x / order)%nat ->
  generate_G solve M F_impl order x u p = Ok (solve (M x p) (F_impl x u p)).
Proof. exact (@generate_G_ok). Qed.
Print Assumptions C53_implicit.

(** With multipliers it is a ValueError, although the code means to drop them. *)
Theorem C53_implicit_multipliers_refuted :
  forall P solve (M : vec -> P -> mat) F_impl order x u (p : P),
  (length x / order < length (solve (M x p) (F_impl x u p)))%nat ->
  generate_G solve M F_impl order x u p = Err ValueError.
Proof. exact (@generate_G_multipliers). Qed.
Print Assumptions C53_implicit_multipliers_refuted.

(** ** C55: the caller's data *)

(** dynamic_errors: with save_in_res=False the entry "error" is kept.  Missing: the entry "interpolations" is always written (below). *)
Theorem C55_error_kept_partial :
  forall rows F mode M save w errs w', dynamic_errors rows F mode M save w = Ok (errs, w') ->
  (if save then w_error w' = Some errs else w_error w' = w_error w) /\
  exists r0 r1, rows = Ok r0 /\ dynamic_errors_from_interp r0 F mode M = Ok (r1, errs) /\ w_interpolations w' = Some r1.
Proof. exact (errors_written). Qed.
Print Assumptions C55_error_kept_partial.

Theorem C55_interpolations_refuted :
  forall rows F mode M w errs w', dynamic_errors rows F mode M false w = Ok (errs, w') -> w_interpolations w = None -> w' <> w.
Proof. exact (interpolations_written). Qed.
Print Assumptions C55_interpolations_refuted.

(** dynamic_errors_from_interp adds the entry "f" to the dictionary and changes no other. *)
Theorem C55_row_partial :
  forall F mode M d d' e, errors_from_row F mode M d = Ok (d', e) ->
  (exists f, get KF d' = Ok f) /\ forall k, k <> KF -> get k d' = get k d.
Proof. exact (row_changed). Qed.
Print Assumptions C55_row_partial.

(** So the dictionary is not the same afterwards. *)
Theorem C55_row_refuted :
  forall F mode M d d' e, errors_from_row F mode M d = Ok (d', e) -> get KF d = Err KeyError -> d' <> d.
Proof. exact (row_written). Qed.
Print Assumptions C55_row_refuted.

(** dynamic_error writes its order in the caller's scheme_params. *)
Theorem C55_scheme_params_refuted :
  forall P (F : vec -> vec -> P -> vec) (p : P) u_other hermite X U t_end Xd scheme u_scheme d n order mode errs d',
  dynamic_error u_other hermite X U t_end p F Xd scheme u_scheme (Some d) n order mode = Ok (errs, d') ->
  sp_order d <> Some order -> sp_order d' = Some order /\ d' <> d.
Proof. exact (@params_written). Qed.
Print Assumptions C55_scheme_params_refuted.

Example C55_example :
  exists errs w', dynamic_errors (do d <- make_row 1 [[1]; [2]] [3] 0; Ok [d]) (fun x u => u) "x" 1 false {| w_interpolations := None; w_error := None |} = Ok (errs, w').
Proof. exact (written_example). Qed.
