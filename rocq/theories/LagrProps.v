(** Properties C59, C60, C61, C71, C72, C73 and C74: equations of motion.  Only
    statements. *)
From Coq Require Import Reals List String.
From Coquelicot Require Import Coquelicot.
From Verif Require Import Prelude PwInterpModel SymModel SymSpec LagrModel LagrSpec LagrFacts LagrProofs LagrReduceProofs LagrRhsProofs LagrMoreProofs LagrMotionProofs LagrExamples LagrExamples2.
Import ListNotations.
Open Scope R_scope.
Open Scope list_scope.

(** ** C59: right-hand sides from the equations of motion *)

(** Where the equations, linear in the accelerations a_0, ..., a_(n-1), have an invertible matrix, accelerations make equation i equal to u_i exactly if they are the values of the result.  Missing: coordinates not called q_0, ..., q_(n-1) (below). *)
Theorem C59_solves_partial :
  forall inv orders eqs rhs D A c, inverts inv ->
  (forall i, (i < length eqs)%nat ->
     Forall (fun a => is_dyn a = true) (nth i orders []) /\
     (forall a, In a (atoms (nth i eqs (Num 0))) -> is_dyn a = true -> In a (nth i orders []))) ->
  linear_in_acc D (length eqs) (map (rename symb_of) eqs) A c ->
  (forall i j, (i < length eqs)%nat -> (j < length eqs)%nat -> outside (a_symb j) (nth i (map (rename symb_of) eqs) (Num 0))) ->
  lagr_to_RHS inv orders eqs = Ok rhs ->
  length rhs = length eqs /\
  forall rho, D rho -> (exists B, inverse (length eqs) (A rho) B) -> forall y,
    ((forall i, (i < length eqs)%nat ->
        eval (fun b => with_acc (length eqs) rho y (symb_of b)) (nth i eqs (Num 0)) = rho (u_symb i)) <->
     (forall j, (j < length eqs)%nat -> y j = eval rho (nth j rhs (Num 0)))).
Proof. exact (lagr_to_RHS_solves). Qed.
Print Assumptions C59_solves_partial.

(** For the equation 2 q_1'' + q_1 = u the matrix that is inverted is 0. *)
Theorem C59_names_refuted :
  exists es,
  mapm (fun i => diff_to_symb_expr (nth i [[Dyn "q_1" 2; Dyn "q_1" 0]]%string []) (nth i [Plus (Times (Num 2) (q_ 1 2)) (q_ 1 0)] (Num 0))) (seq 0 1) = Ok es /\
  forall rho N, ~ inverse 1 (ev rho (coeff_mat es)) N.
Proof. exact (from_one). Qed.
Print Assumptions C59_names_refuted.

Example C59_example :
  inverts inv2 /\ linear_in_acc (fun _ => True) 2 (map (rename symb_of) two_eqs) two_A two_c /\
  (forall i j, (i < 2)%nat -> (j < 2)%nat -> outside (a_symb j) (nth i (map (rename symb_of) two_eqs) (Num 0))) /\
  (forall i, (i < 2)%nat -> Forall (fun a => is_dyn a = true) (nth i two_orders []) /\
     (forall a, In a (atoms (nth i two_eqs (Num 0))) -> is_dyn a = true -> In a (nth i two_orders []))) /\
  (exists rhs, lagr_to_RHS inv2 two_orders two_eqs = Ok rhs /\ length rhs = 2%nat) /\
  (forall rho, exists B, inverse 2 (two_A rho) B).
Proof. exact (conj inv2_inverts (conj two_linear (conj two_outside (conj two_order (conj two_rhs two_invertible))))). Qed.

(** ** C60: mass, Coriolis and potential terms *)

(** M q'' + C q' + G is the Euler-Lagrange expression, along every motion. *)
Theorem C60_equation :
  forall s i g t, motion g -> (forall r, smooth_at (g r) (lg_L s)) ->
  rsum (lg_n s) (fun j => eval (g t) (m_d s i j) * g t (lg_q s 2 j)) +
  rsum (lg_n s) (fun j => eval (g t) (C_matrix s i j) * g t (lg_q s 1 j)) + eval (g t) (G_matrix s i) =
  euler_lagrange (fun r => eval r (lg_L s)) (lg_qs s) i g t.
Proof. exact (mcg_motion). Qed.
Print Assumptions C60_equation.

(** For L = 1/2 sum m_ij q_i' q_j' - V the mass matrix is m, *)
Theorem C60_mass :
  forall D s m V, natural D s m V -> forall rho i j, D rho -> (i < lg_n s)%nat -> (j < lg_n s)%nat ->
  eval rho (m_d s i j) = eval rho (m i j).
Proof. exact (natural_M). Qed.
Print Assumptions C60_mass.

(** C is made of the Christoffel symbols of m, *)
Theorem C60_coriolis :
  forall D s m V, natural D s m V -> forall rho i j, D rho -> (i < lg_n s)%nat -> (j < lg_n s)%nat ->
  eval rho (C_matrix s i j) =
  rsum (lg_n s) (fun k => rho (lg_q s 1 k) *
    (partial (fun r => eval r (m i j)) (lg_q s 0 k) rho + partial (fun r => eval r (m i k)) (lg_q s 0 j) rho - partial (fun r => eval r (m k j)) (lg_q s 0 i) rho) / 2).
Proof. exact (natural_C'). Qed.
Print Assumptions C60_coriolis.

(** and G is the gradient of V. *)
Theorem C60_gravity :
  forall D s m V, natural D s m V -> forall rho i, D rho -> (i < lg_n s)%nat -> eval rho (G_matrix s i) = partial (fun r => eval r V) (lg_q s 0 i) rho.
Proof. exact (natural_G'). Qed.
Print Assumptions C60_gravity.

(** M' - 2 C is skew-symmetric along every motion. *)
Theorem C60_skew :
  forall D s m V, natural D s m V -> forall g t i j, motion g -> D (g t) -> (i < lg_n s)%nat -> (j < lg_n s)%nat ->
  Derive (fun r => eval (g r) (m_d s i j)) t - 2 * eval (g t) (C_matrix s i j) =
  - (Derive (fun r => eval (g r) (m_d s j i)) t - 2 * eval (g t) (C_matrix s j i)).
Proof. exact (natural_skew_motion). Qed.
Print Assumptions C60_skew.

(** M q'' = f says the Euler-Lagrange equations with the forces. *)
Theorem C60_forcing :
  forall s i g t, NoDup (lg_qs s) -> up_to 1 (lg_L s) -> no_acc (lg_qs s) (lg_forces s i) ->
  motion g -> (forall r, smooth_at (g r) (lg_L s)) ->
  rsum (lg_n s) (fun j => eval (g t) (m_d s i j) * g t (lg_q s 2 j)) - eval (g t) (f_d s i) =
  euler_lagrange (fun r => eval r (lg_L s)) (lg_qs s) i g t - eval (g t) (lg_forces s i).
Proof. exact (mass_forcing_motion). Qed.
Print Assumptions C60_forcing.

(** A double pendulum. *)
Example C60_example :
  natural (fun _ => True) pend pend_m pend_V.
Proof. exact (pend_natural). Qed.

(** ** C71: energy *)

(** If M q'' + C q' + G = F the energy changes by the power of F. *)
Theorem C71_power :
  forall D s m V, natural D s m V -> forall g t F, motion g -> D (g t) ->
  (forall i, (i < lg_n s)%nat ->
     rsum (lg_n s) (fun j => eval (g t) (m_d s i j) * g t (lg_q s 2 j)) +
     rsum (lg_n s) (fun j => eval (g t) (C_matrix s i j) * g t (lg_q s 1 j)) + eval (g t) (G_matrix s i) = F i) ->
  is_derive (fun r => / 2 * rsum (lg_n s) (fun i => rsum (lg_n s) (fun j =>
      eval (g r) (m i j) * g r (lg_q s 1 i) * g r (lg_q s 1 j))) + eval (g r) V) t
    (rsum (lg_n s) (fun i => g t (lg_q s 1 i) * F i)).
Proof. exact (power). Qed.
Print Assumptions C71_power.

(** Without forces it is constant. *)
Theorem C71_conserved :
  forall D s m V, natural D s m V -> forall g, motion g -> (forall t, D (g t)) ->
  (forall t i, (i < lg_n s)%nat ->
     rsum (lg_n s) (fun j => eval (g t) (m_d s i j) * g t (lg_q s 2 j)) +
     rsum (lg_n s) (fun j => eval (g t) (C_matrix s i j) * g t (lg_q s 1 j)) + eval (g t) (G_matrix s i) = 0) ->
  forall t t',
  / 2 * rsum (lg_n s) (fun i => rsum (lg_n s) (fun j => eval (g t) (m i j) * g t (lg_q s 1 i) * g t (lg_q s 1 j))) + eval (g t) V =
  / 2 * rsum (lg_n s) (fun i => rsum (lg_n s) (fun j => eval (g t') (m i j) * g t' (lg_q s 1 i) * g t' (lg_q s 1 j))) + eval (g t') V.
Proof. exact (energy_constant). Qed.
Print Assumptions C71_conserved.

Example C71_example :
  natural (fun _ => True) pend pend_m pend_V.
Proof. exact (pend_natural). Qed.

(** ** C61: constrained systems *)

(** calculate_RHS_complete: a motion that satisfies the constraints obeys the equations with some multipliers exactly if it follows the right-hand side.  Missing: constraints with a term without velocities (below). *)
Theorem C61_complete_partial :
  forall D s B, mechanism D s B -> forall inv r, inverts inv ->
  reduce inv (lg_n s) (length (lg_coneqs s)) (m_d s) (lam_coeffs s) (f_d s) (fun i => Var (lg_q s 1 i)) = Ok r ->
  forall g t, motion g -> (forall x, D (g x)) -> (forall x, constrained s (g x)) ->
  ((exists l, obeys s g t l) <->
   (forall i, (i < 2 * lg_n s)%nat ->
      is_derive (fun x => g x (if (i <? lg_n s)%nat then lg_q s 0 i else lg_q s 1 (i - lg_n s)%nat)) t (eval (g t) (nth i (rhs_complete_list (lg_n s) (length (lg_coneqs s)) (fun i => Var (lg_q s 1 i)) r) (Num 0))))).
Proof. exact (complete_motion). Qed.
Print Assumptions C61_complete_partial.

(** A motion that follows it and satisfies the constraints at one time satisfies them always.  Missing: as above. *)
Theorem C61_keeps_partial :
  forall D s B, mechanism D s B -> forall inv r, inverts inv ->
  reduce inv (lg_n s) (length (lg_coneqs s)) (m_d s) (lam_coeffs s) (f_d s) (fun i => Var (lg_q s 1 i)) = Ok r ->
  forall g t0, motion g -> (forall t, D (g t)) -> constrained s (g t0) ->
  (forall t i, (i < lg_n s)%nat -> is_derive (fun x => g x (lg_q s 1 i)) t (eval (g t) (nth (lg_n s + i) (rhs_complete_list (lg_n s) (length (lg_coneqs s)) (fun i => Var (lg_q s 1 i)) r) (Num 0)))) ->
  forall t, constrained s (g t).
Proof. exact (complete_keeps). Qed.
Print Assumptions C61_keeps_partial.

(** The reduced right-hand side is the part of it for the independent coordinates. *)
Theorem C61_reduced :
  forall D s B, mechanism D s B -> forall inv r, inverts inv ->
  reduce inv (lg_n s) (length (lg_coneqs s)) (m_d s) (lam_coeffs s) (f_d s) (fun i => Var (lg_q s 1 i)) = Ok r ->
  forall i, (i < lg_n s - length (lg_coneqs s))%nat ->
  nth i (rhs_reduced_list (lg_n s) (length (lg_coneqs s)) (fun i => Var (lg_q s 1 i)) r) (Num 0) = nth i (rhs_complete_list (lg_n s) (length (lg_coneqs s)) (fun i => Var (lg_q s 1 i)) r) (Num 0) /\
  nth (lg_n s - length (lg_coneqs s) + i) (rhs_reduced_list (lg_n s) (length (lg_coneqs s)) (fun i => Var (lg_q s 1 i)) r) (Num 0) = nth (lg_n s + i) (rhs_complete_list (lg_n s) (length (lg_coneqs s)) (fun i => Var (lg_q s 1 i)) r) (Num 0).
Proof. exact (fun D s B _ inv r _ _ i Hi => reduced_part s r i Hi). Qed.
Print Assumptions C61_reduced.

(** The multipliers are determined. *)
Theorem C61_multipliers_unique :
  forall D s B, mechanism D s B -> forall inv r, inverts inv ->
  reduce inv (lg_n s) (length (lg_coneqs s)) (m_d s) (lam_coeffs s) (f_d s) (fun i => Var (lg_q s 1 i)) = Ok r ->
  forall g t l l', motion g -> (forall x, D (g x)) -> (forall x, constrained s (g x)) ->
  obeys s g t l -> obeys s g t l' -> forall k, (k < length (lg_coneqs s))%nat -> l k = l' k.
Proof. exact (unique_multipliers). Qed.
Print Assumptions C61_multipliers_unique.

(** The multipliers returned are right if the mass matrix does not couple independent and dependent coordinates and the constraint matrix of the dependent ones is symmetric.  Missing: the rest (below). *)
Theorem C61_lambda_partial :
  forall D s B, mechanism D s B -> forall inv r, inverts inv ->
  reduce inv (lg_n s) (length (lg_coneqs s)) (m_d s) (lam_coeffs s) (f_d s) (fun i => Var (lg_q s 1 i)) = Ok r ->
  forall g t, motion g -> (forall x, D (g x)) -> (forall x, constrained s (g x)) ->
  (forall i j, (i < lg_n s - length (lg_coneqs s))%nat -> (j < length (lg_coneqs s))%nat ->
     partial (partial (fun rho => eval rho (lg_L s)) (lg_q s 1 i)) (lg_q s 1 (lg_n s - length (lg_coneqs s) + j)%nat) (g t) = 0) ->
  (forall k j, (k < length (lg_coneqs s))%nat -> (j < length (lg_coneqs s))%nat ->
     eval (g t) (B k (lg_n s - length (lg_coneqs s) + j)%nat) = eval (g t) (B j (lg_n s - length (lg_coneqs s) + k)%nat)) ->
  (exists l, obeys s g t l) ->
  obeys s g t (fun k => eval (g t) (lambda_vector (lg_n s) (length (lg_coneqs s)) (m_d s) (f_d s) (fun i => Var (lg_q s 1 i)) r k)).
Proof. exact (lambda_motion). Qed.
Print Assumptions C61_lambda_partial.

(** L = q_0'^2 + q_0' q_1' + q_1'^2, q_0' + q_1' = 0, a unit force on q_0: the multiplier is -1/2, the code gives -1. *)
Theorem C61_lambda_refuted :
  inverts inv2 /\ mechanism (fun _ => True) mixed ones /\ motion parting /\ (forall t, constrained mixed (parting t)) /\
  (forall t, obeys mixed parting t (fun _ => - / 2)) /\
  exists r, reduced_of mixed = Ok r /\ forall t, eval (parting t) (lambda_of mixed r 0%nat) = -1.
Proof. exact (conj inv2_inverts (conj mixed_mechanism (conj parting_motion (conj (parting_constrained _ _) (conj (fun t => parting_obeys mixed t (or_introl eq_refl)) mixed_lambda))))). Qed.
Print Assumptions C61_lambda_refuted.

(** The constraint q_1' + q_0 = 0: a motion that follows the right-hand side leaves it. *)
Theorem C61_offset_refuted :
  exists r, reduced_of offset = Ok r /\ motion drift /\
  (forall t i, (i < 2)%nat -> is_derive (fun x => drift x (lg_q offset 1 i)) t (eval (drift t) (nth (2 + i) (complete_of offset r) (Num 0)))) /\
  constrained offset (drift 0) /\ ~ constrained offset (drift 1).
Proof. exact (offset_drifts). Qed.
Print Assumptions C61_offset_refuted.

(** Without constraints. *)
Theorem C61_unconstrained :
  forall inv s l g t, inverts inv -> NoDup (lg_qs s) -> up_to 1 (lg_L s) ->
  (forall i, (i < lg_n s)%nat -> no_acc (lg_qs s) (lg_forces s i)) ->
  motion g -> (forall x, smooth_at (g x) (lg_L s)) ->
  (exists B, inverse (lg_n s) (ev (g t) (m_d s)) B) ->
  rhs_unconstrained inv (lg_n s) (m_d s) (f_d s) (fun i => Var (lg_q s 1 i)) = Ok l ->
  length l = (2 * lg_n s)%nat /\
  (forall i, (i < lg_n s)%nat -> eval (g t) (nth i l (Num 0)) = g t (lg_q s 1 i)) /\
  ((forall i, (i < lg_n s)%nat -> euler_lagrange (fun r => eval r (lg_L s)) (lg_qs s) i g t = eval (g t) (lg_forces s i)) <->
   (forall i, (i < lg_n s)%nat -> g t (lg_q s 2 i) = eval (g t) (nth (lg_n s + i) l (Num 0)))).
Proof. exact (unconstrained_motion). Qed.
Print Assumptions C61_unconstrained.

(** cos(q_0) q_0' + q_1' = 0. *)
Example C61_example :
  inverts inv2 /\ mechanism (fun _ => True) track track_B /\ exists r, reduced_of track = Ok r.
Proof. exact (conj inv2_inverts (conj track_mechanism track_reduces)). Qed.

Example C61_lambda_example :
  mechanism (fun _ => True) apart ones /\ motion parting /\ (forall t, constrained apart (parting t)) /\
  (forall t, obeys apart parting t (fun _ => - / 2)) /\
  exists r, reduced_of apart = Ok r /\ forall t, eval (parting t) (lambda_of apart r 0%nat) = - / 2.
Proof. exact (conj apart_mechanism (conj parting_motion (conj (parting_constrained _ _) (conj (fun t => parting_obeys apart t (or_intror eq_refl)) apart_lambda)))). Qed.

(** ** C72: the order in which things are asked *)

(** Whatever was asked before, once the equations are formed: rhs_full and calculate_RHS_complete give the complete right-hand side, *)
Theorem C72_full :
  forall constrained reducible l, In Ask_form_equations l ->
  snd (asked constrained reducible (after constrained reducible l) Ask_full) = Ok (A_full (if constrained then Complete else Unconstrained)) /\
  snd (asked constrained reducible (after constrained reducible l) Ask_complete) = Ok (A_rhs (if constrained then Complete else Unconstrained)).
Proof. exact (fun c r l H => conj (answer_full c r l H) (answer_complete c r l H)). Qed.
Print Assumptions C72_full.

(** rhs_reduced the reduced one or an error, *)
Theorem C72_reduced :
  forall constrained reducible l, In Ask_form_equations l ->
  snd (asked constrained reducible (after constrained reducible l) Ask_reduced) =
  if (constrained && reducible)%bool then Ok (A_rhs Reduced) else Err ValueError.
Proof. exact (answer_reduced). Qed.
Print Assumptions C72_reduced.

(** rhs one of them.  Missing: always the same (below). *)
Theorem C72_rhs_partial :
  forall constrained reducible l, In Ask_form_equations l ->
  snd (asked constrained reducible (after constrained reducible l) Ask_rhs) = Ok (A_rhs (if constrained then Complete else Unconstrained)) \/
  (constrained = true /\ reducible = true /\ snd (asked constrained reducible (after constrained reducible l) Ask_rhs) = Ok (A_rhs Reduced)).
Proof. exact (answer_rhs). Qed.
Print Assumptions C72_rhs_partial.

(** rhs gives another result after calculate_RHS_complete. *)
Theorem C72_rhs_refuted :
  snd (asks true true (false, new_cache) [Ask_form_equations; Ask_rhs; Ask_complete; Ask_rhs]) =
  [Ok A_nothing; Ok (A_rhs Reduced); Ok (A_rhs Complete); Ok (A_rhs Complete)].
Proof. exact (rhs_history). Qed.
Print Assumptions C72_rhs_refuted.

(** The multipliers, or an AttributeError.  Missing: the multipliers always. *)
Theorem C72_lambda_partial :
  forall constrained reducible l, In Ask_form_equations l ->
  snd (asked constrained reducible (after constrained reducible l) Ask_lambda) = Ok A_lambda \/
  (constrained = true /\ snd (asked constrained reducible (after constrained reducible l) Ask_lambda) = Err AttributeError).
Proof. exact (answer_lambda). Qed.
Print Assumptions C72_lambda_partial.

(** After rhs_full or calculate_RHS_complete always the multipliers. *)
Theorem C72_lambda_after :
  forall constrained reducible l a l', In Ask_form_equations l -> a = Ask_full \/ a = Ask_complete ->
  snd (asked constrained reducible (after constrained reducible (l ++ a :: l')) Ask_lambda) = Ok A_lambda.
Proof. exact (answer_lambda_full). Qed.
Print Assumptions C72_lambda_after.

(** Asked too early, an AttributeError. *)
Theorem C72_lambda_refuted :
  snd (asks true true (false, new_cache) [Ask_form_equations; Ask_lambda; Ask_rhs; Ask_lambda; Ask_full; Ask_lambda]) =
  [Ok A_nothing; Err AttributeError; Ok (A_rhs Reduced); Err AttributeError; Ok (A_full Complete); Ok A_lambda].
Proof. exact (lambda_history). Qed.
Print Assumptions C72_lambda_refuted.

(** Before the equations are formed everything is an error. *)
Theorem C72_before :
  forall constrained reducible l, ~ In Ask_form_equations l ->
  forall a, In a [Ask_rhs; Ask_complete; Ask_reduced; Ask_full] -> snd (asked constrained reducible (after constrained reducible l) a) = Err ValueError.
Proof. exact (answer_before). Qed.
Print Assumptions C72_before.

(** ** C73: implicit dynamics *)

Theorem C73_length :
  forall s, length (implicit_dynamics_q s) = (lg_n s + length (lg_coneqs s))%nat.
Proof. exact (implicit_length). Qed.
Print Assumptions C73_length.

(** The first n expressions of implicit_dynamics_q are the differences between both sides of the equations with multipliers lam_k; *)
Theorem C73_dynamics :
  forall s g t i, NoDup (lg_qs s) -> up_to 1 (lg_L s) -> no_acc (lg_qs s) (lg_forces s i) -> (i < lg_n s)%nat ->
  motion g -> (forall x, smooth_at (g x) (lg_L s)) ->
  (forall k, (k < length (lg_coneqs s))%nat -> smooth_at (g t) (nth k (lg_coneqs s) (Num 0))) ->
  eval (g t) (nth i (implicit_dynamics_q s) (Num 0)) =
  euler_lagrange (fun r => eval r (lg_L s)) (lg_qs s) i g t - eval (g t) (lg_forces s i) -
  rsum (length (lg_coneqs s)) (fun k => g t (lam k) * partial (fun r => eval r (nth k (lg_coneqs s) (Num 0))) (lg_q s 1 i) (g t)).
Proof. exact (implicit_motion). Qed.
Print Assumptions C73_dynamics.

(** the others the time derivatives of the constraints. *)
Theorem C73_constraints :
  forall s g t k, NoDup (lg_qs s) -> up_to 1 (nth k (lg_coneqs s) (Num 0)) -> (k < length (lg_coneqs s))%nat ->
  motion g -> smooth_at (g t) (nth k (lg_coneqs s) (Num 0)) ->
  is_derive (fun x => eval (g x) (nth k (lg_coneqs s) (Num 0))) t (eval (g t) (nth (lg_n s + k) (implicit_dynamics_q s) (Num 0))).
Proof. exact (implicit_con_motion). Qed.
Print Assumptions C73_constraints.

(** implicit_dynamics_x: x_i' - x_(n+i), then the same expressions with x_i and x_(n+i) for q_i and q_i'.  Missing: coordinates with names that clash with the states (x_clear, in SymSpec.v) or called lam_k; the next theorem shows a clash. *)
Theorem C73_states_partial :
  forall s l, NoDup (lg_qs s) -> x_clear (lg_qs s) ->
  (forall k, (k < length (lg_coneqs s))%nat -> ~ In ("lam" ++ str_nat (k + 1))%string (lg_qs s)) ->
  implicit_dynamics_x s = Ok l ->
  length l = (lg_n s + (lg_n s + length (lg_coneqs s)))%nat /\
  (forall rho i, (i < lg_n s)%nat -> eval rho (nth i l (Num 0)) = rho (Dyn (x_name i) 1) - rho (Dyn (x_name (lg_n s + i)) 0)) /\
  (forall rho i, (i < lg_n s + length (lg_coneqs s))%nat ->
     eval rho (nth (lg_n s + i) l (Num 0)) = eval (fun a => rho (x_for (lg_qs s) a)) (nth i (implicit_dynamics_q s) (Num 0))).
Proof. exact (implicit_x). Qed.
Print Assumptions C73_states_partial.

(** With coordinates called x_1 and x_0 the spring of the first acts on the second. *)
Theorem C73_names_refuted :
  NoDup (lg_qs crossed) /\ up_to 1 (lg_L crossed) /\ exists l rho, implicit_dynamics_x crossed = Ok l /\
  eval rho (nth 2 l (Num 0)) = 0 /\ eval (fun a => rho (x_for (lg_qs crossed) a)) (nth 0 (implicit_dynamics_q crossed) (Num 0)) = 1.
Proof. exact crossed_wrong. Qed.
Print Assumptions C73_names_refuted.

Example C73_example :
  NoDup (lg_qs track) /\ up_to 1 (lg_L track) /\ (forall i, no_acc (lg_qs track) (lg_forces track i)) /\
  (forall rho, smooth_at rho (lg_L track)) /\ (forall rho, smooth_at rho (nth 0 (lg_coneqs track) (Num 0))) /\
  (forall i, ~ In (x_name i) (lg_qs track)) /\ (forall k, ~ In ("lam" ++ str_nat (k + 1))%string (lg_qs track)) /\ exists l, implicit_dynamics_x track = Ok l.
Proof. exact (track_implicit). Qed.

(** ** C74: inverse dynamics *)

(** The matrix whose pseudoinverse is taken is that of the controls in the forces. *)
Theorem C74_matrix :
  forall s us E h g t, NoDup (lg_qs s) -> up_to 1 (lg_L s) ->
  (forall i, (i < lg_n s)%nat -> no_acc (lg_qs s) (lg_forces s i)) ->
  motion g -> (forall x, smooth_at (g x) (lg_L s)) -> (forall i, (i < lg_n s)%nat -> smooth_at (g t) (lg_forces s i)) ->
  affine_controls s us (g t) E h ->
  forall i k, (i < lg_n s)%nat -> (k < length us)%nat -> eval (g t) (pinv_E s us i k) = E i k.
Proof. exact (fun s us E h g t _ u1 na _ sm sf af => pinv_matrix s us E h (fun _ _ A => A) g t u1 na sm sf af). Qed.
Print Assumptions C74_matrix.

(** If the pseudoinverse is a left inverse: on a motion that obeys the equations sym_pinv_dyn gives its controls.  With constraints: C74_constraints. *)
Theorem C74_recovers_partial :
  forall s us E h pinv g t, NoDup (lg_qs s) -> up_to 1 (lg_L s) ->
  (forall i, (i < lg_n s)%nat -> no_acc (lg_qs s) (lg_forces s i)) ->
  motion g -> (forall x, smooth_at (g x) (lg_L s)) -> (forall i, (i < lg_n s)%nat -> smooth_at (g t) (lg_forces s i)) ->
  affine_controls s us (g t) E h ->
  (forall k l, (k < length us)%nat -> (l < length us)%nat ->
     rsum (lg_n s) (fun i => ev (g t) (pinv (lg_n s) (length us) (pinv_E s us)) k i * E i l) = delta k l) ->
  (forall i, (i < lg_n s)%nat -> euler_lagrange (fun r => eval r (lg_L s)) (lg_qs s) i g t = eval (g t) (lg_forces s i)) ->
  forall k, (k < length us)%nat -> eval (g t) (sym_pinv_dyn_simp pinv s us k) = g t (nth k us (Static ""%string)).
Proof. exact (fun s us E h pinv g t nd u1 na mo sm _ af => controls_recovered s us E h pinv g t nd u1 na mo sm af). Qed.
Print Assumptions C74_recovers_partial.

(** If it is a right inverse: whatever the motion, these controls make it obey the equations.  With constraints: C74_constraints. *)
Theorem C74_produces_partial :
  forall s us E h pinv g t, NoDup (lg_qs s) -> up_to 1 (lg_L s) ->
  (forall i, (i < lg_n s)%nat -> no_acc (lg_qs s) (lg_forces s i)) ->
  motion g -> (forall x, smooth_at (g x) (lg_L s)) -> (forall i, (i < lg_n s)%nat -> smooth_at (g t) (lg_forces s i)) ->
  affine_controls s us (g t) E h ->
  (forall i j, (i < lg_n s)%nat -> (j < lg_n s)%nat ->
     rsum (length us) (fun k => E i k * ev (g t) (pinv (lg_n s) (length us) (pinv_E s us)) k j) = delta i j) ->
  forall i, (i < lg_n s)%nat ->
  euler_lagrange (fun r => eval r (lg_L s)) (lg_qs s) i g t =
  rsum (length us) (fun k => E i k * eval (g t) (sym_pinv_dyn_simp pinv s us k)) + h i.
Proof. exact (fun s us E h pinv g t nd u1 na mo sm _ af => torques_produce s us E h pinv g t nd u1 na mo sm af). Qed.
Print Assumptions C74_produces_partial.

(** Both classes give the same. *)
Theorem C74_classes_agree :
  forall s us E h pinv g t, NoDup (lg_qs s) -> up_to 1 (lg_L s) ->
  (forall i, (i < lg_n s)%nat -> no_acc (lg_qs s) (lg_forces s i)) ->
  motion g -> (forall x, smooth_at (g x) (lg_L s)) -> (forall i, (i < lg_n s)%nat -> smooth_at (g t) (lg_forces s i)) ->
  affine_controls s us (g t) E h ->
  forall k, eval (g t) (sym_pinv_dyn_simp pinv s us k) = eval (g t) (sym_pinv_dyn_impl pinv s us k).
Proof. exact (fun s us E h pinv g t _ u1 na _ sm sf af => same_torques s us E h pinv g t u1 na sm sf af). Qed.
Print Assumptions C74_classes_agree.

Example C74_example :
  natural (fun _ => True) pend pend_m pend_V /\ forall rho, affine_controls pend pend_us rho delta (fun _ => 0) /\
  (forall k l, (k < 2)%nat -> (l < 2)%nat -> rsum 2 (fun i => ev rho (pinv2 2 2 (pinv_E pend pend_us)) k i * delta i l) = delta k l) /\
  (forall k l, (k < 2)%nat -> (l < 2)%nat -> rsum 2 (fun i => delta k i * ev rho (pinv2 2 2 (pinv_E pend pend_us)) i l) = delta k l).
Proof. exact (conj pend_natural (fun rho => conj (pend_affine rho) (pend_pinv rho))). Qed.
