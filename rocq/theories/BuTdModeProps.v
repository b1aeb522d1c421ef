(** Property C53 for the bottom-up and top-down schemes: the options of
    [dynamic_error_BU] and [dynamic_error_TD].  Only statements: each theorem is
    an [exact] of a lemma proved elsewhere, followed by its assumptions.  [rr]
    is sympy's real_roots, [lg] numpy's leggauss. *)
From Coq Require Import String.
From Coquelicot Require Import Coquelicot.
From Verif Require Import Prelude Poly PolyInterp Mat PwInterpModel PsModel PsSpec PsNodesProofs UtilModel UtilSpec
  BuTdModel BuTdSpec BuTdInterpProofs BuTdModeProofs.
Open Scope R_scope.
Open Scope vec_scope.
Open Scope list_scope.

(** The errors at two times or more are the errors at each time (C53_bottom_up says
    what those are). *)
Theorem C53_bottom_up_times :
  forall rr lg F Fc xx xd uu name t0 tf M so ui xi ts errs, (2 <= length ts)%nat ->
  dynamic_error_BU_arr rr lg F Fc xx xd uu name t0 tf M so ui xi "q" ts = Ok errs <->
  Forall2 (fun t e => dynamic_error_BU rr lg F xx xd uu name t0 tf M so ui xi t = Ok e) ts errs.
Proof. exact bu_pointwise. Qed.
Print Assumptions C53_bottom_up_times.

Theorem C53_top_down_times :
  forall rr F Fc qc xx xd uu name t0 tf M so ui xi ts errs, (2 <= length ts)%nat ->
  xi <> "lin"%string \/ (M < 2)%nat \/ length ts = length xx ->
  dynamic_error_TD_arr rr F Fc qc xx xd uu name t0 tf M so ui xi "q" ts = Ok errs <->
  Forall2 (fun t e => dynamic_error_TD rr F qc xx xd uu name t0 tf M so ui xi t = Ok e) ts errs.
Proof. exact td_pointwise. Qed.
Print Assumptions C53_top_down_times.

(** The documented interpolation "lin" has no errors in top-down mode, for
    problems of order two or more, unless as many times are asked for as there
    are points (or there is one point): its second derivatives have as many rows as the points. *)
Theorem C53_top_down_lin_refuted :
  forall rr F Fc qc xx xd uu name t0 tf M so ui mode ts errs, (2 <= M)%nat -> (2 <= length ts)%nat ->
  length ts <> length xx -> length xx <> 1%nat ->
  dynamic_error_TD_arr rr F Fc qc xx xd uu name t0 tf M so ui "lin" mode ts <> Ok errs.
Proof. exact td_lin. Qed.
Print Assumptions C53_top_down_lin_refuted.

(** A pendulum with four points, whose errors are asked for at 2000 times, and
    the same errors with another interpolation. *)
Example C53_top_down_lin_hypotheses :
  let xx := repeat [0; 0] 4 in let ts := map INR (seq 0 2000) in
  (2 <= 2)%nat /\ (2 <= length ts)%nat /\ length ts <> length xx /\ length xx <> 1%nat /\ "pol"%string <> "lin"%string.
Proof. cbv zeta. rewrite map_length, seq_length, repeat_length. repeat split; try lia; discriminate. Qed.

(** The option mode="x", documented as the errors with the components of the
    state in the dynamics, never returns when more times are asked for than the
    name of the interpolation has letters (the default is 2000 times and
    "pol"), whatever the data and the dynamics, even if they accept a letter as
    a state. *)
Theorem C53_mode_x_refuted :
  forall rr lg F Fc xx xd uu name t0 tf M so ui xi ts errs, (String.length xi < length ts)%nat ->
  dynamic_error_BU_arr rr lg F Fc xx xd uu name t0 tf M so ui xi "x" ts <> Ok errs.
Proof. exact bu_mode_x. Qed.
Print Assumptions C53_mode_x_refuted.

Theorem C53_top_down_mode_x_refuted :
  forall rr F Fc qc xx xd uu name t0 tf M so ui xi ts errs, (String.length xi < length ts)%nat ->
  dynamic_error_TD_arr rr F Fc qc xx xd uu name t0 tf M so ui xi "x" ts <> Ok errs.
Proof. exact td_mode_x. Qed.
Print Assumptions C53_top_down_mode_x_refuted.

(** Modes other than the two documented ones are refused. *)
Theorem C53_mode_rejected :
  forall rr lg F Fc xx xd uu name t0 tf M so ui xi mode ts errs, ~ In mode ["q"; "x"]%string ->
  dynamic_error_BU_arr rr lg F Fc xx xd uu name t0 tf M so ui xi mode ts <> Ok errs.
Proof. exact bu_mode_other. Qed.
Print Assumptions C53_mode_rejected.

Theorem C53_top_down_mode_rejected :
  forall rr F Fc qc xx xd uu name t0 tf M so ui xi mode ts errs, ~ In mode ["q"; "x"]%string ->
  dynamic_error_TD_arr rr F Fc qc xx xd uu name t0 tf M so ui xi mode ts <> Ok errs.
Proof. exact td_mode_other. Qed.
Print Assumptions C53_top_down_mode_rejected.

(** The order of the scheme, documented as used by the Jacobi schemes only, must
    not be below the order of the problem: with its default, 2, problems of
    order 3 or more have no dynamic errors at all. *)
Theorem C53_bottom_up_scheme_order_refuted :
  forall rr lg F Fc xx xd uu name t0 tf M so ui xi mode ts errs, (so < M)%nat -> ts <> [] ->
  dynamic_error_BU_arr rr lg F Fc xx xd uu name t0 tf M so ui xi mode ts <> Ok errs.
Proof. exact bu_low_order. Qed.
Print Assumptions C53_bottom_up_scheme_order_refuted.

(** With the same default and a problem of order 1: no error for one
    coordinate, the rate of the first coordinate minus each value of the
    dynamics for two or three, and a ValueError for more. *)
Theorem C53_bottom_up_order_one_refuted :
  forall rr, real_roots_ok rr -> forall lg, leggauss_ok lg -> forall s name N nq nu t0 tf xx xx_dot uu P U tc cn,
  In s ["LG"; "CG"; "LGR"; "CGR"; "LGR_inv"; "CGR_inv"; "LGL"; "CGL"]%string -> In name [s; ("BU_" ++ s)%string] ->
  enough_points s N -> (1 <= nq)%nat -> t0 <> tf ->
  coll_points rr N s 1 = Ok tc -> BU_construction_points rr N s 1 = Ok cn ->
  let ts := tau_to_t_points ([-1] ++ cn) t0 tf in
  shaped (length ts) nq xx_dot -> length P = nq -> Forall (fun c => (length c <= N + 1)%nat) P ->
  (forall i, (i < length ts)%nat -> mrow i xx = state_at P (vnth ts i)) ->
  (forall i, (i < length ts)%nat -> mrow i xx_dot = rate_n_at 1 P (vnth ts i)) ->
  shaped N nu uu -> length U = nu -> traj_through (tau_to_t_points tc t0 tf) uu U -> forall F t,
  length (F (state_at P t) (state_at U t)) = nq ->
  dynamic_error_BU rr lg F xx xx_dot uu name t0 tf 1 2 "pol" "pol" t =
  if (nq =? 1)%nat then Ok [[[]]]
  else if (nq <=? 3)%nat
  then Ok [[map (fun y => vnth (rate_n_at 1 P t) 0 - y) (F (state_at P t) (state_at U t))]]
  else Err ValueError.
Proof. exact bu_order_one. Qed.
Print Assumptions C53_bottom_up_order_one_refuted.

(** Two tanks filled at rates 1 and 2, with every scheme and number of points:
    the trajectory is the exact solution; the error of the second tank is -1. *)
Theorem C53_bottom_up_tanks_refuted :
  forall rr, real_roots_ok rr -> forall lg, leggauss_ok lg -> forall s N t0 tf t,
  In s ["LG"; "CG"; "LGR"; "CGR"; "LGR_inv"; "CGR_inv"; "LGL"; "CGL"]%string -> enough_points s N -> t0 <> tf ->
  exists tc cn, let ts := tau_to_t_points ([-1] ++ cn) t0 tf in
  let P := [[0; 1]; [0; 2]] in let U := [[0]] in
  let xx := map (state_at P) ts in let xd := map (rate_n_at 1 P) ts in let uu := map (state_at U) (tau_to_t_points tc t0 tf) in
  coll_points rr N s 1 = Ok tc /\ BU_construction_points rr N s 1 = Ok cn /\
  shaped (length ts) 2 xd /\ Forall (fun c => (length c <= N + 1)%nat) P /\
  (forall i, (i < length ts)%nat -> mrow i xx = state_at P (vnth ts i)) /\
  (forall i, (i < length ts)%nat -> mrow i xd = rate_n_at 1 P (vnth ts i)) /\
  shaped N 1 uu /\ traj_through (tau_to_t_points tc t0 tf) uu U /\
  (forall t, rate_n_at 1 P t = [1; 2]) /\
  dynamic_error_BU rr lg (fun _ _ => [1; 2]) xx xd uu s t0 tf 1 2 "pol" "pol" t = Ok [[[0; -1]]].
Proof. exact bu_order_one_example. Qed.
Print Assumptions C53_bottom_up_tanks_refuted.
