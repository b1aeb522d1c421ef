(** The double pendulum example. *)
From Verif Require Import Prelude NumpyModel.
Open Scope R_scope.
(** numpy.py:312-359 and casadi.py:466-513 [doub_pend_F], of one state and one
    control as vectors. [unpack] of a vector gives its entries; then names are
    taken from the lists, and a name taken twice keeps the last value. The
    divisions are those of R. *)
Definition doub_pend_F (x u params : list R) : Res (list R) :=
  match x with
  | [q_0; q_1; v_0; v_1] =>
    match u with
    | [u_0; u_1] =>
      do ps <- doub_pend_params params;
      match ps with
      | [_; _; _; _; _; m_1; l_1; l_0; m_0; g] =>
        Ok [v_0; v_1;
            (l_0 * (l_1 * m_1 * (g * sin q_1 - l_0 * v_0 ^ 2 * sin (q_0 - q_1)) - u_1) * cos (q_0 - q_1)
              + l_1 * (- l_0 * (g * m_0 * sin q_0 + g * m_1 * sin q_0 + l_1 * m_1 * v_1 ^ 2 * sin (q_0 - q_1)) + u_0))
            / (l_0 ^ 2 * l_1 * (m_0 - m_1 * cos (q_0 - q_1) ^ 2 + m_1));
            (- l_0 * (m_0 + m_1) * (l_1 * m_1 * (g * sin q_1 - l_0 * v_0 ^ 2 * sin (q_0 - q_1)) - u_1)
              + l_1 * m_1 * (l_0 * (g * m_0 * sin q_0 + g * m_1 * sin q_0 + l_1 * m_1 * v_1 ^ 2 * sin (q_0 - q_1)) - u_0) * cos (q_0 - q_1))
            / (l_0 * l_1 ^ 2 * m_1 * (m_0 - m_1 * cos (q_0 - q_1) ^ 2 + m_1))]
      | _ => Err ValueError
      end
    | _ => Err ValueError
    end
  | _ => Err ValueError
  end.
(** numpy.py:312, casadi.py:466: the default parameters *)
Definition doub_pend_default : list R := [1; 1; 1; 1; 1].
