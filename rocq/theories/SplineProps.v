(** C94: Hermite and smooth interpolations of pseudospectral solutions. *)
From Coq Require Import String.
From Coquelicot Require Import Coquelicot.
From Verif Require Import Prelude Poly Mat PolyInterp PsModel PsSpec BuTdModel BuTdSpec
  PwModel PwInterpModel PwInterpSpec SplineModel SplineSpec SplineBtProofs SplinePwProofs SplineExamples.
Open Scope R_scope.
Open Scope list_scope.

(** The spline itself: increasing times, a value and a slope for each. *)
Theorem C94_spline :
  forall x y d n m,
  (2 <= n)%nat -> length x = n -> shaped n m y -> shaped n m d -> increasing x ->
  exists s Ps, hermite x y d = Ok s /\ hermite_cubics x y d Ps /\
    follows_cubics x Ps (fun k t => sp_eval (Nat.iter k sp_derivative s) t) /\
    smooth_through x y d m (sp_eval s) (sp_eval (sp_derivative s)).
Proof. exact (hermite_curve). Qed.
Print Assumptions C94_spline.

(** Bottom-up: the curve through the values with the stored derivatives as slopes; the controls do not change. *)
Theorem C94_bottom_up :
  forall rr, real_roots_ok rr -> forall (lg : nat -> vec * vec) s name N M nq t0 tf xx xx_dot cn so,
  In s bt_schemes -> In name [s; ("BU_" ++ s)%string] -> enough_points s N -> (1 <= M)%nat -> (1 <= nq)%nat -> t0 < tf ->
  BU_construction_points rr N s so = Ok cn ->
  let ts := tau_to_t_points ([-1] ++ cn) t0 tf in
  shaped (length ts) (M * nq) xx -> shaped (length ts) (M * nq) xx_dot ->
  exists Ps X, hermite_cubics ts xx xx_dot Ps /\ follows_cubics ts Ps X /\ smooth_through ts xx xx_dot (M * nq) (X 0%nat) (X 1%nat) /\
    (forall k t, interpolations_deriv_BU_pseudospectral rr lg xx xx_dot name M k t0 tf so "Hermite" t = Ok (X k t)) /\
    (forall uu u_interp t,
      interpolations_BU_pseudospectral rr lg xx xx_dot uu name M t0 tf so u_interp "Hermite" t
        = match interpolations_BU_pseudospectral rr lg xx xx_dot uu name M t0 tf so u_interp "lin" t with
          | Ok (_, _, u) => Ok (X 0%nat t, X 1%nat t, u)
          | Err e => Err e
          end).
Proof. exact (bu_hermite). Qed.
Print Assumptions C94_bottom_up.

(** Top-down. *)
Theorem C94_top_down :
  forall rr, real_roots_ok rr -> forall s name N M nq t0 tf q_constr xx xx_dot cn so,
  In s bt_schemes -> In name [s; ("TD_" ++ s)%string] -> enough_points s N -> (1 <= M)%nat -> (1 <= nq)%nat -> t0 < tf ->
  TD_construction_points rr N s so = Ok cn -> shaped (N + M) nq q_constr ->
  let ts := tau_to_t_points cn t0 tf in
  shaped (length ts) (M * nq) xx -> shaped (length ts) (M * nq) xx_dot ->
  exists Ps X, hermite_cubics ts xx xx_dot Ps /\ follows_cubics ts Ps X /\ smooth_through ts xx xx_dot (M * nq) (X 0%nat) (X 1%nat) /\
    (forall k t, interpolations_deriv_TD_pseudospectral rr q_constr xx xx_dot name k t0 tf N so "Hermite" t = Ok (X k t)) /\
    (forall uu u_interp t, length uu = N ->
      interpolations_TD_pseudospectral rr q_constr xx xx_dot uu name t0 tf so u_interp "Hermite" t
        = match interpolations_TD_pseudospectral rr q_constr xx xx_dot uu name t0 tf so u_interp "lin" t with
          | Ok (_, _, u) => Ok (X 0%nat t, X 1%nat t, u)
          | Err e => Err e
          end).
Proof. exact (td_hermite). Qed.
Print Assumptions C94_top_down.

(** A body with position t^2, for every scheme. *)
Example C94_hypotheses :
  forall rr, real_roots_ok rr -> forall s N so,
  In s bt_schemes -> enough_points s N -> exists cb ct,
  BU_construction_points rr N s so = Ok cb /\ TD_construction_points rr N s so = Ok ct /\
  (let ts := tau_to_t_points ([-1] ++ cb) 0 3 in shaped (length ts) (2 * 1) (fall_x ts) /\ shaped (length ts) (2 * 1) (fall_x_d ts)) /\
  (let ts := tau_to_t_points ct 0 3 in shaped (length ts) (2 * 1) (fall_x ts) /\ shaped (length ts) (2 * 1) (fall_x_d ts)) /\
  shaped (N + 2) 1 (repeat [0] (N + 2)).
Proof. exact (bt_case). Qed.
Print Assumptions C94_hypotheses.

(** Pseudospectral, for the schemes whose arrays are not extended: q has the velocities as slopes, v the derivatives of the polynomial through the velocities. *)
Theorem C94_pseudospectral :
  forall rr, real_roots_ok rr -> forall s N n t0 t1 qq vv m nd V,
  In s not_extended -> enough_points s N -> n_col_to_n_nodes s N = Ok n -> t0 < t1 -> (2 <= n)%nat ->
  shaped n m qq -> shaped n m vv -> node_points rr n s = Ok nd ->
  let ts := tau_to_t_points nd t0 t1 in
  length V = m -> traj_through ts vv V ->
  let aa := map (rate_at V) ts in
  exists Qs Vs Q W, hermite_cubics ts qq vv Qs /\ follows_cubics ts Qs Q /\ smooth_through ts qq vv m (Q 0%nat) (Q 1%nat) /\
    hermite_cubics ts vv aa Vs /\ follows_cubics ts Vs W /\ smooth_through ts vv aa m (W 0%nat) (W 1%nat) /\
    (forall uu u_interp t,
      interpolations_pseudospectral rr qq vv uu s t0 t1 u_interp "Hermite" t
        = match interpolations_pseudospectral rr qq vv uu s t0 t1 u_interp "pol" t with
          | Ok (_, _, _, _, _, u) => Ok (Q 0%nat t, Q 1%nat t, W 0%nat t, W 1%nat t, Q 2%nat t, u)
          | Err e => Err e
          end).
Proof. exact (ps_hermite_n). Qed.
Print Assumptions C94_pseudospectral.

(** Derivatives of order k by themselves: the slopes at the nodes are the derivatives of order k, so for k = 1 it is the derivative of the curve. Missing: the other orders, see C94_derivatives_refuted. *)
Theorem C94_derivatives_partial :
  forall rr, real_roots_ok rr -> forall s N n t0 t1 xx m nd P k,
  In s all_schemes -> enough_points s N -> n_col_to_n_nodes s N = Ok n -> t0 < t1 -> (2 <= n)%nat ->
  shaped n m xx -> node_points rr n s = Ok nd ->
  let ts := tau_to_t_points nd t0 t1 in
  length P = m -> traj_through ts xx P ->
  let dd := map (rate_n_at k P) ts in
  exists Ps X, hermite_cubics ts xx dd Ps /\ follows_cubics ts Ps X /\ smooth_through ts xx dd m (X 0%nat) (X 1%nat) /\
    forall t, interpolations_deriv_pseudospectral rr xx s k t0 t1 "Hermite" t = Ok (X k t).
Proof. exact (ps_hermite_deriv_n). Qed.
Print Assumptions C94_derivatives_partial.

(** A body at constant speed, for every scheme. *)
Example C94_pseudospectral_hypotheses :
  forall rr, real_roots_ok rr -> forall s n,
  In s not_extended -> enough_points s n -> exists k nd,
  n_col_to_n_nodes s n = Ok k /\ node_points rr k s = Ok nd /\
  let ts := tau_to_t_points nd 0 3 in let qq := map (fun t => [2 * t]) ts in let vv := map (fun _ => [2]) ts in
  shaped k 1 qq /\ shaped k 1 vv /\ traj_through ts vv [[2]].
Proof. exact (ps_case). Qed.
Print Assumptions C94_pseudospectral_hypotheses.

(** The second derivative of t^2, asked for by itself, is -18 at the start. *)
Theorem C94_derivatives_refuted :
  forall rr, real_roots_ok rr ->
  node_points rr 3 "CGL" = Ok [-1; 0; 1] /\
  traj_through (tau_to_t_points [-1; 0; 1] (-1) 1) [[1]; [0]; [1]] [[0; 0; 1]] /\
  rate_n_at 2 [[0; 0; 1]] (-1) = [2] /\
  interpolations_deriv_pseudospectral rr [[1]; [0]; [1]] "CGL" 2 (-1) 1 "Hermite" (-1) = Ok [-18].
Proof. exact (CGL_second). Qed.
Print Assumptions C94_derivatives_refuted.

(** CG: the speed is t; its derivative at time 0 is 7 / sqrt 2 - 2. *)
Theorem C94_extended_refuted :
  forall rr, real_roots_ok rr ->
  exists q qd v qdd u,
  interpolations_pseudospectral rr [[1 / 2]; [0]] [[-1]; [0]] [[1]] "CG" (-1) 1 "pol" "Hermite" 0
    = Ok (q, qd, v, [7 / sqrt 2 - 2], qdd, u).
Proof. exact (CG_acceleration). Qed.
Print Assumptions C94_extended_refuted.

(** CG_inv: q is t; its value at time 1 is -1. *)
Theorem C94_extended_inv_refuted :
  forall rr, real_roots_ok rr ->
  exists qd v vd qdd u,
  interpolations_pseudospectral rr [[0]; [1]] [[1]; [1]] [[0]] "CG_inv" (-1) 1 "pol" "Hermite" 1
    = Ok ([-1], qd, v, vd, qdd, u).
Proof. exact (CG_inv_end). Qed.
Print Assumptions C94_extended_inv_refuted.

(** Smooth controls: no call returns. *)
Theorem C94_smooth_refuted :
  forall (rr : list R -> list R) qq vv uu s t0 t1 xi t r,
  interpolations_pseudospectral rr qq vv uu s t0 t1 "smooth" xi t = Ok r -> False.
Proof. exact (smooth_fails). Qed.
Print Assumptions C94_smooth_refuted.

(** Bottom-up. *)
Theorem C94_smooth_bottom_up_refuted :
  forall (rr : list R -> list R) lg xx xd uu s M t0 tf so xi t r,
  interpolations_BU_pseudospectral rr lg xx xd uu s M t0 tf so "smooth" xi t = Ok r -> False.
Proof. exact (smooth_fails_bu). Qed.
Print Assumptions C94_smooth_bottom_up_refuted.

(** Top-down. *)
Theorem C94_smooth_top_down_refuted :
  forall (rr : list R -> list R) qc xx xd uu s t0 tf so xi t r,
  interpolations_TD_pseudospectral rr qc xx xd uu s t0 tf so "smooth" xi t = Ok r -> False.
Proof. exact (smooth_fails_td). Qed.
Print Assumptions C94_smooth_top_down_refuted.

(** ** The piecewise scheme "hs_scipy": the values and the first two derivatives
    are those of the cubics through the samples with the slopes given by F. *)
Theorem C94_piecewise :
  forall {P : Type} (F : vec -> vec -> P -> vec) (p : P) u_other (X U D : list vec) h m,
  0 < h -> (2 <= length X)%nat -> shaped (length X) m X -> shaped (length X) m D ->
  length U = length X \/ length X = (length U + 1)%nat ->
  (forall i, (i < length X)%nat -> nth i D [] = F (nth i X []) (nth i (full_controls X U) []) p) ->
  let T := map (fun i => INR i * h) (seq 0 (length X)) in
  exists Ps C, hermite_cubics T X D Ps /\ follows_cubics T Ps C /\ smooth_through T X D m (C 0%nat) (C 1%nat) /\
    forall ts sp,
      (forall us nX nU sp', interpolated_array u_other scipy_hermite X U h ts p (Some F) None "hs_scipy" us sp = Ok (nX, nU, sp') ->
         nX = map (C 0%nat) ts) /\
      (forall k nX sp', (k = 1 \/ k = 2)%nat ->
         interpolated_array_derivative X U h ts p (Some F) None "hs_scipy" k sp = Ok (nX, sp') -> nX = map (C k) ts) /\
      (ts <> [] -> last ts 0 <= INR (length X - 1) * h ->
         (exists nX nU sp', interpolated_array u_other scipy_hermite X U h ts p (Some F) None "hs_scipy" "lin" sp = Ok (nX, nU, sp')) /\
         (forall k, exists nX sp', interpolated_array_derivative X U h ts p (Some F) None "hs_scipy" k sp = Ok (nX, sp'))).
Proof. exact (@scipy_scheme). Qed.
Print Assumptions C94_piecewise.

(** A body under the constant acceleration 2, with one control too few. *)
Example C94_piecewise_hypotheses :
  let X := [[0; 0]; [1; 2]; [4; 4]] in let U := [[2]; [2]] in let D := [[0; 2]; [2; 2]; [4; 2]] in
  shaped 3 2 X /\ shaped 3 2 D /\ length X = (length U + 1)%nat /\
  forall i, (i < 3)%nat -> nth i D [] = [vnth (nth i X []) 1; vnth (nth i (full_controls X U) []) 0].
Proof.
  intros X U D. split; [split; repeat constructor|]. split; [split; repeat constructor|]. split; [reflexivity|].
  intros i Hi. destruct i as [|[|[|i]]]; [reflexivity..|lia].
Qed.
Print Assumptions C94_piecewise_hypotheses.

(** The third derivative of the cubic is -12; the answer is 0. *)
Theorem C94_piecewise_third_refuted : let F := fun (_ u : vec) (_ : unit) => u in
  hermite_cubics [0; 1] [[0]; [1]] [[0]; [0]] [[[0; 0; 3; -2]]] /\
  rate_n_at 3 [[0; 0; 3; -2]] (1 / 2) = [-12] /\
  interpolated_array_derivative [[0]; [1]] [[0]; [0]] 1 [1 / 2] tt (Some F) None "hs_scipy" 3 None = Ok ([[0]], no_params).
Proof. exact (scipy_third). Qed.
Print Assumptions C94_piecewise_third_refuted.
