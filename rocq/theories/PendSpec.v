(** What the double pendulum is. *)
From Coq Require Import Reals.
Open Scope R_scope.
(** The energy of two point masses: m_0 at the end of a rod of length l_0 that
    hangs from the origin, m_1 at the end of a rod of length l_1 that hangs from
    the first; angles from the vertical. *)
Definition pend_x0 (l_0 q_0 : R) : R := l_0 * sin q_0.
Definition pend_y0 (l_0 q_0 : R) : R := - l_0 * cos q_0.
Definition pend_x1 (l_0 l_1 q_0 q_1 : R) : R := pend_x0 l_0 q_0 + l_1 * sin q_1.
Definition pend_y1 (l_0 l_1 q_0 q_1 : R) : R := pend_y0 l_0 q_0 - l_1 * cos q_1.
(** The squares of the speeds of the masses *)
Definition is_velocity (x : R -> R) (t v : R) : Prop := derivable_pt_lim x t v.
Definition pend_energy (m_0 m_1 g : R) (vx0 vy0 vx1 vy1 y0 y1 : R) : R :=
  m_0 * (vx0 ^ 2 + vy0 ^ 2) / 2 + m_1 * (vx1 ^ 2 + vy1 ^ 2) / 2 - (m_0 * g * y0 + m_1 * g * y1).
(** The Lagrangian as a function of angles and angular velocities *)
Definition pend_L (m_0 m_1 l_0 l_1 g : R) (q_0 q_1 v_0 v_1 : R) : R :=
  pend_energy m_0 m_1 g (l_0 * cos q_0 * v_0) (l_0 * sin q_0 * v_0)
    (l_0 * cos q_0 * v_0 + l_1 * cos q_1 * v_1) (l_0 * sin q_0 * v_0 + l_1 * sin q_1 * v_1)
    (pend_y0 l_0 q_0) (pend_y1 l_0 l_1 q_0 q_1).
(** The Euler-Lagrange equations of two coordinates, with generalised forces *)
Definition euler_lagrange2 (L : R -> R -> R -> R -> R) (q_0 q_1 v_0 v_1 u_0 u_1 : R -> R) : Prop :=
  exists P_0 P_1 D_0 D_1 : R -> R, forall t,
    derivable_pt_lim (fun z => L (q_0 t) (q_1 t) z (v_1 t)) (v_0 t) (P_0 t) /\
    derivable_pt_lim (fun z => L (q_0 t) (q_1 t) (v_0 t) z) (v_1 t) (P_1 t) /\
    derivable_pt_lim (fun z => L z (q_1 t) (v_0 t) (v_1 t)) (q_0 t) (D_0 t) /\
    derivable_pt_lim (fun z => L (q_0 t) z (v_0 t) (v_1 t)) (q_1 t) (D_1 t) /\
    derivable_pt_lim P_0 t (D_0 t + u_0 t) /\
    derivable_pt_lim P_1 t (D_1 t + u_1 t).
