(** Properties C91 and C92: Lagrange's equations from the energies, and their
    right-hand sides.  Only statements. *)
From Coq Require Import Reals List String.
From Coquelicot Require Import Coquelicot.
From Verif Require Import Prelude PwInterpModel SymModel SymSpec LagrModel LagrSpec LagrEqModel LagrEqSpec LagrEqProofs LagrEqRhsProofs LagrExamples LagrEqExamples.
Import ListNotations.
Open Scope R_scope.
Open Scope list_scope.

(** ** C91: lagrange and get_lagr_eqs *)

(** Along every motion that stays near t where the energies are smooth, equation i has the value d/dt (dL/dq_i') - dL/dq_i, L = T - U; the energies may depend on time. *)
Theorem C91_motion :
  forall simplify expand D, keeps_values D simplify -> keeps_values D expand -> line_open D -> forall T U, smooth_on D T -> smooth_on D U -> 
  forall qs eqs, get_lagr_eqs simplify expand T U qs = Ok eqs ->
  length eqs = length (coordinate_list qs) /\
  forall g t, timed_motion g -> locally t (fun s => D (g s)) -> forall i, (i < length eqs)%nat -> exists n k, nth i (coordinate_list qs) (Static "") = Dyn n k /\
  eval (g t) (nth i eqs (Num 0)) = lagrange_value (fun r => eval r T - eval r U) n k g t.
Proof. exact (equations_motion). Qed.
Print Assumptions C91_motion.

(** There are equations exactly if all the coordinates are dynamic symbols. *)
Theorem C91_accepted :
  forall simplify expand T U qs, (exists eqs, get_lagr_eqs simplify expand T U qs = Ok eqs) <-> (forall a, In a (coordinate_list qs) -> exists n k, a = Dyn n k).
Proof. exact (equations_accepted). Qed.
Print Assumptions C91_accepted.

(** Without time, it is the equation M q'' + C q' + G of LagrangesMethod. *)
Theorem C91_method :
  forall simplify expand D T U names eqs s rho i, keeps_values D simplify -> keeps_values D expand -> line_open D -> smooth_on D T -> smooth_on D U ->
  ~ In time (atoms T ++ atoms U) -> lg_L s = Minus T U -> lg_qs s = names ->
  get_lagr_eqs simplify expand T U (C_list (map (fun n => Dyn n 0) names)) = Ok eqs -> D rho -> (i < length names)%nat ->
  eval rho (nth i eqs (Num 0)) =
  rsum (lg_n s) (fun j => eval rho (m_d s i j) * rho (lg_q s 2 j)) +
  rsum (lg_n s) (fun j => eval rho (C_matrix s i j) * rho (lg_q s 1 j)) + eval rho (G_matrix s i).
Proof. exact (equations_method). Qed.
Print Assumptions C91_method.

(** ** C92: from the energies to the right-hand sides *)

(** lagr_to_RHS(get_lagr_eqs(T, U, n)): a motion obeys Lagrange's equations with the forces u_0, ..., u_(n-1) exactly if its accelerations are the values of the right-hand sides, where d2L/dq_i'dq_j' is invertible.  Missing: coordinates not called q_0, ..., q_(n-1), that lagr_to_RHS does not find (C59), and dynamic symbols that are not coordinates. *)
Theorem C92_rhs_partial :
  forall simplify expand D, keeps_values D simplify -> keeps_values D expand -> line_open D -> forall T U n, smooth_on D T -> smooth_on D U ->
  of_state n T -> of_state n U -> depends_on (atoms T ++ atoms U) D ->
  forall eqs, get_lagr_eqs simplify expand T U (C_int n) = Ok eqs -> forall inv orders rhs g t sigma, inverts inv ->
  (forall i, (i < n)%nat -> Forall (fun a => is_dyn a = true) (nth i orders []) /\
     (forall a, In a (atoms (nth i eqs (Num 0))) -> is_dyn a = true -> In a (nth i orders []))) ->
  lagr_to_RHS inv orders eqs = Ok rhs ->
  timed_motion g -> locally t (fun s => D (g s)) ->
  (forall a, In a (atoms T ++ atoms U) \/ (exists i k, (i < n)%nat /\ (k <= 2)%nat /\ a = Dyn (q_name i) k) -> sigma (symb_of a) = g t a) ->
  (exists B, inverse n (fun i j => partial (partial (fun r => eval r T - eval r U) (Dyn (q_name i) 1)) (Dyn (q_name j) 1) (g t)) B) ->
  length rhs = n /\
  ((forall i, (i < n)%nat -> lagrange_value (fun r => eval r T - eval r U) (q_name i) 0 g t = sigma (u_symb i)) <->
   (forall j, (j < n)%nat -> g t (Dyn (q_name j) 2) = eval sigma (nth j rhs (Num 0)))).
Proof. exact (equations_rhs). Qed.
Print Assumptions C92_rhs_partial.

(** A mass pushed by a force that depends on time, for C91 and C92. *)
Example C92_example :
  exists eqs rhs, get_lagr_eqs mirror mirror push_T push_U (C_int 1) = Ok eqs /\ lagr_to_RHS inv2 push_orders eqs = Ok rhs /\
  keeps_values all_env mirror /\ line_open all_env /\ smooth_on all_env push_T /\ smooth_on all_env push_U /\ of_state 1 push_T /\ of_state 1 push_U /\
  depends_on (atoms push_T ++ atoms push_U) all_env /\ inverts inv2 /\
  (forall i, (i < 1)%nat -> Forall (fun a => is_dyn a = true) (nth i push_orders []) /\
     (forall a, In a (atoms (nth i eqs (Num 0))) -> is_dyn a = true -> In a (nth i push_orders []))) /\
  timed_motion push_g /\ forall t : R, locally t (fun s => all_env (push_g s)) /\
  (forall a, In a (atoms push_T ++ atoms push_U) \/ (exists i k, (i < 1)%nat /\ (k <= 2)%nat /\ a = Dyn (q_name i) k) -> push_sigma t (symb_of a) = push_g t a) /\
  (exists B, inverse 1 (fun i j => partial (partial (fun r => eval r push_T - eval r push_U) (Dyn (q_name i) 1)) (Dyn (q_name j) 1) (push_g t)) B) /\
  push_g t (Dyn (q_name 0) 2) = eval (push_sigma t) (nth 0 rhs (Num 0)).
Proof. exact (push_hypotheses). Qed.
