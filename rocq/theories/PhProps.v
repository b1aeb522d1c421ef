(** Properties C39-C41: multi-segment problems.  Only statements.  [ns] are the
    numbers of points of the segments, [knots] the times of the knots, [w] any
    values of the optimisation variables, [dyn] any function giving the residual
    of the dynamics.  The vocabulary is in PhSpec, PsSpec and BuTdSpec. *)
From Coq Require Import String.
From Verif Require Import Prelude Mat Poly PolyInterp PsModel PsSpec PsProblemProofs UtilModel UtilSpec BuTdModel BuTdSpec BuTdProofs
  PhModel PhSpec PhJoinProofs PhFinalProofs PhExamples.
Open Scope string_scope.
Open Scope list_scope.
Open Scope R_scope.

(** ** C39: arrays and times *)

(** Segments and knots are disjoint and cover every row, in order: the last line lists every row once. *)
Theorem C39_arrays :
  forall ns X, (0 < length ns)%nat -> length X = ph_n_arr ns ->
  length (ph_col ns X) = length ns /\ length (ph_knot_ext ns X) = (length ns + 1)%nat /\ length (ph_like_u ns X) = list_sum ns /\
  (forall s, (s < length ns)%nat -> length (nth s (ph_col ns X) []) = nth s ns 0%nat /\
     forall i, (i < nth s ns 0)%nat -> mrow i (nth s (ph_col ns X) []) = mrow (point_row ns s i) X /\
       mrow (point_number ns s i) (ph_like_u ns X) = mrow (point_row ns s i) X) /\
  (forall k, (k <= length ns)%nat -> nth k (ph_knot_ext ns X) [] = mrow (knot_row ns k) X) /\
  [knot_row ns 0] ++ flat_map (fun s => map (point_row ns s) (seq 0 (nth s ns 0%nat)) ++ [knot_row ns (s + 1)]) (seq 0 (length ns))
    = seq 0 (length X).
Proof. exact (arrays_partition). Qed.
Print Assumptions C39_arrays.

(** The knots have their times, the times are in order, and strictly so when no collocation point is at an end of its segment. *)
Theorem C39_times :
  forall rr, real_roots_ok rr -> forall p knots ns,
  In (ph_scheme p) all_schemes -> Forall (enough_points (ph_scheme p)) ns -> length ns = (length knots + 1)%nat ->
  ph_t_start p < ph_t_end p -> good_knots (ph_t_start p) (ph_t_end p) knots ->
  exists t, ph_t_arr rr p knots ns = Ok t /\ length t = ph_n_arr ns /\
  (forall k, (k <= length ns)%nat -> vnth t (knot_row ns k) = vnth (knot_times (ph_t_start p) (ph_t_end p) knots) k) /\
  (forall i j, (i <= j < ph_n_arr ns)%nat -> vnth t i <= vnth t j) /\
  (forall s i j, (s < length ns)%nat -> (i < j < nth s ns 0)%nat -> vnth t (point_row ns s i) < vnth t (point_row ns s j)) /\
  (~ In (ph_scheme p) schemes_with_start -> ~ In (ph_scheme p) schemes_with_end -> increasing t).
Proof. exact (times_ordered). Qed.
Print Assumptions C39_times.

(** With a collocation point at an end of the segment the time of the end is there twice. *)
Theorem C39_increasing_refuted :
  forall rr, real_roots_ok rr -> forall p knots ns,
  In (ph_scheme p) all_schemes -> Forall (enough_points (ph_scheme p)) ns -> length ns = (length knots + 1)%nat ->
  ph_t_start p < ph_t_end p -> good_knots (ph_t_start p) (ph_t_end p) knots ->
  forall t, ph_t_arr rr p knots ns = Ok t ->
  In (ph_scheme p) (schemes_with_start ++ schemes_with_end) -> ~ increasing t.
Proof. exact (times_not_increasing). Qed.
Print Assumptions C39_increasing_refuted.

(** ** C40: segments *)

(** Top-down: the feasible points are the motions that are polynomial in each segment and meet at the knots; the highest derivative meets there too. *)
Theorem C40_td :
  forall rr, real_roots_ok rr -> forall lg dyn p knots ns w nu t,
  length ns = (length knots + 1)%nat -> ph_t_start p < ph_t_end p -> good_knots (ph_t_start p) (ph_t_end p) knots ->
  Forall (enough_points (ph_scheme p)) ns -> (1 <= ph_order p)%nat -> (1 <= ph_n_q p)%nat ->
  shaped (ph_n_arr ns) (ph_order p * ph_n_q p) (hv_x w) -> shaped (ph_n_arr ns) (ph_order p * ph_n_q p) (hv_x_d w) ->
  shaped (ph_n_arr ns) nu (hv_u w) -> ph_t_arr rr p knots ns = Ok t -> ph_kind p = Ph_td -> In (ph_scheme p) bt_schemes ->
  residual_has_chain (ph_n_q p) (ph_order p) dyn ->
  (forall s, (s < length ns)%nat -> shaped (nth s ns 0%nat + ph_order p) (ph_n_q p) (nth s (hv_q_constr w) [])) ->
  exists cs, ph_apply_scheme rr lg dyn p knots ns w = Ok cs /\
    (satisfied cs <->
     (exists Ps, length Ps = length ns /\ forall s, (s < length ns)%nat ->
        segment_motion dyn (nth s ns 0%nat + ph_order p) (ph_n_q p) (ph_order p) t ns (hv_x w) (hv_x_d w) (hv_u w) (hv_lam w) s (nth s Ps []) /\
        mrow (knot_row ns s) (hv_x_d w) = full_rate (ph_order p) (nth s Ps []) (vnth t (knot_row ns s)) /\
        mrow (knot_row ns (s + 1)) (hv_x_d w) = full_rate (ph_order p) (nth s Ps []) (vnth t (knot_row ns (s + 1))) /\
        forall i, (i < nth s ns 0 + ph_order p)%nat ->
          mrow i (nth s (hv_q_constr w) []) = state_at (nth s Ps [])
            (vnth (tau_to_t_points (LGL rr (nth s ns 0%nat + ph_order p)) (vnth t (knot_row ns s)) (vnth t (knot_row ns (s + 1)))) i)) /\
     knot_controls t ns (hv_u w) nu).
Proof. exact (td_join). Qed.
Print Assumptions C40_td.

(** Bottom-up: the same, with the highest derivative at a knot that of the segment that starts there. *)
Theorem C40_bu :
  forall rr, real_roots_ok rr -> forall lg, leggauss_ok lg -> forall dyn p knots ns w nu t,
  length ns = (length knots + 1)%nat -> ph_t_start p < ph_t_end p -> good_knots (ph_t_start p) (ph_t_end p) knots ->
  Forall (enough_points (ph_scheme p)) ns -> (1 <= ph_order p)%nat -> (1 <= ph_n_q p)%nat ->
  shaped (ph_n_arr ns) (ph_order p * ph_n_q p) (hv_x w) -> shaped (ph_n_arr ns) (ph_order p * ph_n_q p) (hv_x_d w) ->
  shaped (ph_n_arr ns) nu (hv_u w) -> ph_t_arr rr p knots ns = Ok t -> ph_kind p = Ph_bu -> In (ph_scheme p) bt_schemes -> Forall (bu_sized (ph_scheme p)) ns ->
  residual_has_chain (ph_n_q p) (ph_order p) dyn ->
  exists cs, ph_apply_scheme rr lg dyn p knots ns w = Ok cs /\
    (satisfied cs <->
     (exists Ps, length Ps = length ns /\ forall s, (s < length ns)%nat ->
        segment_motion dyn (nth s ns 0%nat + ph_order p) (ph_n_q p) (ph_order p) t ns (hv_x w) (hv_x_d w) (hv_u w) (hv_lam w) s (nth s Ps []) /\
        mrow (knot_row ns s) (hv_x_d w) = full_rate (ph_order p) (nth s Ps []) (vnth t (knot_row ns s)) /\
        (s + 1 = length ns -> mrow (knot_row ns (s + 1)) (hv_x_d w) = full_rate (ph_order p) (nth s Ps []) (vnth t (knot_row ns (s + 1))))%nat) /\
     knot_controls t ns (hv_u w) nu).
Proof. exact (bu_join). Qed.
Print Assumptions C40_bu.

(** Pseudospectral, for every scheme but D2 and with the restrictions on the order that the code needs. *)
Theorem C40_ps_sound_partial :
  forall rr, real_roots_ok rr -> forall lg dyn p knots ns w nu t,
  length ns = (length knots + 1)%nat -> ph_t_start p < ph_t_end p -> good_knots (ph_t_start p) (ph_t_end p) knots ->
  Forall (enough_points (ph_scheme p)) ns -> (1 <= ph_order p)%nat -> (1 <= ph_n_q p)%nat ->
  shaped (ph_n_arr ns) (ph_order p * ph_n_q p) (hv_x w) -> shaped (ph_n_arr ns) (ph_order p * ph_n_q p) (hv_x_d w) ->
  shaped (ph_n_arr ns) nu (hv_u w) -> ph_t_arr rr p knots ns = Ok t -> ph_kind p = Ph_ps -> In (ph_scheme p) all_schemes -> ph_scheme p <> "D2" ->
  (In (ph_scheme p) (gauss_schemes ++ gauss_inv_schemes) -> (ph_order p <= 2)%nat) ->
  (ph_order p = 2%nat \/ ~ In (ph_scheme p) jacobi_schemes) ->
  exists cs, ph_apply_scheme rr lg dyn p knots ns w = Ok cs /\
    (satisfied cs ->
     (exists Ps, length Ps = length ns /\ (forall s, (s < length ns)%nat ->
        exists n, n_col_to_n_nodes (ph_scheme p) (nth s ns 0%nat) = Ok n /\
           segment_state_motion dyn n (ph_order p * ph_n_q p) t ns (hv_x w) (hv_x_d w) (hv_u w) (hv_lam w) s (nth s Ps [])) /\
        (forall k, (k <= length ns)%nat -> exists s, (s < length ns /\ (s = k \/ s + 1 = k))%nat /\
           lastn (ph_n_q p) (mrow (knot_row ns k) (hv_x_d w)) = lastn (ph_n_q p) (rate_at (nth s Ps []) (vnth t (knot_row ns k))))) /\
     knot_controls t ns (hv_u w) nu).
Proof. exact (ps_join_sound). Qed.
Print Assumptions C40_ps_sound_partial.

Theorem C40_ps_complete_partial :
  forall rr, real_roots_ok rr -> forall lg dyn p knots ns w nu t,
  length ns = (length knots + 1)%nat -> ph_t_start p < ph_t_end p -> good_knots (ph_t_start p) (ph_t_end p) knots ->
  Forall (enough_points (ph_scheme p)) ns -> (1 <= ph_order p)%nat -> (1 <= ph_n_q p)%nat ->
  shaped (ph_n_arr ns) (ph_order p * ph_n_q p) (hv_x w) -> shaped (ph_n_arr ns) (ph_order p * ph_n_q p) (hv_x_d w) ->
  shaped (ph_n_arr ns) nu (hv_u w) -> ph_t_arr rr p knots ns = Ok t -> ph_kind p = Ph_ps -> In (ph_scheme p) all_schemes -> ph_scheme p <> "D2" ->
  (In (ph_scheme p) (gauss_schemes ++ gauss_inv_schemes) -> (ph_order p <= 2)%nat) ->
  (ph_order p = 2%nat \/ ~ In (ph_scheme p) jacobi_schemes) ->
  exists cs, ph_apply_scheme rr lg dyn p knots ns w = Ok cs /\
    forall Ps, (forall s, (s < length ns)%nat ->
        (exists n, n_col_to_n_nodes (ph_scheme p) (nth s ns 0%nat) = Ok n /\
           segment_state_motion dyn n (ph_order p * ph_n_q p) t ns (hv_x w) (hv_x_d w) (hv_u w) (hv_lam w) s (nth s Ps [])) /\
        mrow (knot_row ns s) (hv_x_d w) = rate_at (nth s Ps []) (vnth t (knot_row ns s)) /\
        mrow (knot_row ns (s + 1)) (hv_x_d w) = rate_at (nth s Ps []) (vnth t (knot_row ns (s + 1)))) ->
      (forall k, (k <= length ns)%nat -> skipn (ph_n_q p) (mrow (knot_row ns k) (hv_x w)) = butlastn (ph_n_q p) (mrow (knot_row ns k) (hv_x_d w))) ->
      knot_controls t ns (hv_u w) nu -> satisfied cs.
Proof. exact (ps_join_complete). Qed.
Print Assumptions C40_ps_complete_partial.

(** Motions of consecutive segments end and start at the same state. *)
Theorem C40_meet :
  forall dyn n n' nq M t ns x x_d u lam s P P',
  segment_motion dyn n nq M t ns x x_d u lam s P -> segment_motion dyn n' nq M t ns x x_d u lam (s + 1) P' ->
  full_state M P (vnth t (knot_row ns (s + 1))) = full_state M P' (vnth t (knot_row ns (s + 1))).
Proof. exact (motions_meet). Qed.
Print Assumptions C40_meet.

Theorem C40_meet_state :
  forall dyn n n' m t ns x x_d u lam s P P',
  segment_state_motion dyn n m t ns x x_d u lam s P -> segment_state_motion dyn n' m t ns x x_d u lam (s + 1) P' ->
  state_at P (vnth t (knot_row ns (s + 1))) = state_at P' (vnth t (knot_row ns (s + 1))).
Proof. exact (state_motions_meet). Qed.
Print Assumptions C40_meet_state.

(** With D2 the state jumps at the knot: both points are at time 1. *)
Theorem C40_D2_refuted :
  forall rr, real_roots_ok rr -> forall lg, exists t cs, ph_t_arr rr d2_problem [1] [2; 2]%nat = Ok t /\
  ph_apply_scheme rr lg mass d2_problem [1] [2; 2]%nat d2_values = Ok cs /\ satisfied cs /\
  vnth t (point_row [2; 2]%nat 0 1) = 1 /\ vnth t (point_row [2; 2]%nat 1 0) = 1 /\
  mrow (point_row [2; 2]%nat 0 1) (hv_x d2_values) = [0; 0] /\ mrow (point_row [2; 2]%nat 1 0) (hv_x d2_values) = [1; 0].
Proof. exact (d2_not_joined). Qed.
Print Assumptions C40_D2_refuted.

(** With a Jacobi scheme and dynamics of order 1 the times of the problem are not those where the equations hold. *)
Theorem C40_jacobi_refuted :
  forall rr, real_roots_ok rr -> forall lg, exists t cs, ph_t_arr rr jacobi_problem [] [2%nat] = Ok t /\
  ph_apply_scheme rr lg first_order jacobi_problem [] [2%nat] jacobi_values = Ok cs /\ satisfied cs /\ t = [0; 0; 4 / 3; 2] /\
  ~ exists P, segment_state_motion first_order 3 1 t [2%nat] (hv_x jacobi_values) (hv_x_d jacobi_values) (hv_u jacobi_values) (hv_lam jacobi_values) 0 P.
Proof. exact (jacobi_wrong_times). Qed.
Print Assumptions C40_jacobi_refuted.

Example C40_td_feasible :
  forall rr, real_roots_ok rr -> forall lg s, In s bt_schemes -> exists t cs, ph_t_arr rr (mass_problem Ph_td s) [1] [2; 3]%nat = Ok t /\
  ph_apply_scheme rr lg mass (mass_problem Ph_td s) [1] [2; 3]%nat (mass_motion rr [2; 3]%nat t) = Ok cs /\ satisfied cs /\ (20 <= length cs)%nat.
Proof. exact (mass_td). Qed.

Example C40_bu_feasible :
  forall rr, real_roots_ok rr -> forall lg, leggauss_ok lg -> forall s, In s bt_schemes -> exists t cs, ph_t_arr rr (mass_problem Ph_bu s) [1] [2; 3]%nat = Ok t /\
  ph_apply_scheme rr lg mass (mass_problem Ph_bu s) [1] [2; 3]%nat (mass_motion rr [2; 3]%nat t) = Ok cs /\ satisfied cs.
Proof. exact (mass_bu). Qed.

Example C40_ps_feasible :
  forall rr, real_roots_ok rr -> forall lg s, In s all_schemes -> s <> "D2" -> ~ In s lobatto_schemes ->
  exists t cs, ph_t_arr rr (mass_problem Ph_ps s) [1] [2; 3]%nat = Ok t /\
  ph_apply_scheme rr lg mass (mass_problem Ph_ps s) [1] [2; 3]%nat (mass_motion rr [2; 3]%nat t) = Ok cs /\ satisfied cs.
Proof. exact (mass_ps). Qed.

(** ** C41: the structure *)

(** What is accepted: knots inside the horizon and in order, not necessarily different, and any integers as numbers of points. *)
Theorem C41_accepted_partial :
  forall t0 t1 knots ps z, check_structure t0 t1 knots ps = Ok z <->
  Forall (fun t => t0 < t < t1) knots /\ (forall i, (i + 1 < length knots)%nat -> vnth knots i <= vnth knots (i + 1)) /\
  length ps = (length knots + 1)%nat /\ ps = map IZR z.
Proof. exact (check_structure_ok). Qed.
Print Assumptions C41_accepted_partial.

(** The error is never ValueError. *)
Theorem C41_rejected_refuted :
  forall t0 t1 knots ps,
  ~ (Forall (fun t => t0 < t < t1) knots /\ (forall i, (i + 1 < length knots)%nat -> vnth knots i <= vnth knots (i + 1)) /\
     length ps = (length knots + 1)%nat /\ exists z, ps = map IZR z) ->
  check_structure t0 t1 knots ps = Err AssertionError.
Proof. exact (check_structure_total). Qed.
Print Assumptions C41_rejected_refuted.

(** Two equal knots are accepted: a segment of length 0. *)
Theorem C41_equal_knots_refuted :
  check_structure 0 1 [1 / 2; 1 / 2] [3; 3; 3] = Ok [3; 3; 3]%Z.
Proof. exact (equal_knots_accepted). Qed.
Print Assumptions C41_equal_knots_refuted.

(** So are numbers of points that are not positive. *)
Theorem C41_counts_refuted :
  check_structure 0 1 [1 / 2] [0; -2] = Ok [0; -2]%Z.
Proof. exact (counts_accepted). Qed.
Print Assumptions C41_counts_refuted.

Example C41_accepts :
  check_structure 0 2 [1] [4; 5] = Ok [4; 5]%Z.
Proof. exact (good_accepted). Qed.
