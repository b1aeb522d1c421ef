(** Model of the constraints of equispaced problems: class _Equispaced,
    chords/opti.py:1836-2283.  A point of the optimisation is given by the
    values of its variables; a constraint is a pair of rows required to be
    equal. *)
From Coq Require Import String.
From Verif Require Import Prelude Mat PwModel PsModel CostModel.
Open Scope string_scope.
Open Scope list_scope.
Open Scope R_scope.

(** numpy.linspace(a, b, N + 1) for N >= 1. *)
Definition eq_t_arr (t_start t_end : R) (N : nat) : vec :=
  map (fun i => t_start + INR i * ((t_end - t_start) / INR N)) (seq 0 (N + 1)).
(** opti.py:1952-1955: t_c_arr *)
Definition eq_t_c_arr (scheme : string) (t_arr : vec) : vec :=
  let a := butlastn 1 t_arr in let b := skipn 1 t_arr in
  if sub_in "j" scheme then vadd (vscale 0.6 a) (vscale 0.4 b) else vscale (1 / 2) (vadd a b).

(** The variables: opti.py:1884-1886, 1905, and 1940-1956 for the interior
    points (only used by the schemes with "hs" in their name). *)
Record eq_values := {
  ev_x : mat; ev_x_d : mat; ev_u : mat; ev_lam : mat;
  ev_x_c : mat; ev_x_d_c : mat; ev_u_c : mat; ev_lam_c : mat;
}.

(** x_dot_opti[:, -n_q:], the last of q_and_ders (opti.py:1890). *)
Definition highest (n_q : nat) (x_d : mat) : mat := map (lastn n_q) x_d.

(** opti.py:2177-2193 [restr_schemes].  The functions of the schemes without
    interior point ignore their last argument. *)
Definition restr_schemes (scheme : string) (order : nat) : option (vec -> vec -> vec -> vec -> R -> vec -> vec) :=
  if scheme =? "trapz" then Some (fun x x_n a a_n dt _ => trapz_accel_restr x x_n a a_n dt)
  else if scheme =? "trapz_mod" then Some (fun x x_n a a_n dt _ => trapz_mod_accel_restr x x_n a a_n dt)
  else if scheme =? "trapz_n" then Some (fun x x_n a a_n dt _ => trapz_m_accel_restr order x x_n a a_n dt)
  else if scheme =? "hs" then Some hs_accel_restr
  else if scheme =? "hs_mod" then Some hs_mod_accel_restr
  else if scheme =? "hs_parab" then Some hs_accel_restr
  else if scheme =? "hs_mod_parab" then Some hs_mod_accel_restr
  else if scheme =? "hsj" then Some hsj_accel_restr
  else if scheme =? "hsj_parab" then Some hsj_accel_restr
  else if scheme =? "hsj_parab_mod" then Some hsj_accel_restr
  else if scheme =? "hsn" then Some (hs_m_accel_restr order)
  else if scheme =? "hsn_parab" then Some (hs_m_accel_restr order)
  else None.

(** opti.py:2167-2174 *)
Definition half_x_of (scheme : string) (order : nat) : vec -> vec -> vec -> vec -> R -> vec :=
  if sub_in "j" scheme then hsj_half_x
  else if sub_in "hsn" scheme then hs_m_half_x order
  else if sub_in "mod" scheme then hs_mod_half_x
  else hs_half_x.

(** [e == 0] for a row e. *)
Definition row_constr : Type := (vec * vec)%type.
Definition row_zero (r : vec) : row_constr := (r, repeat 0 (length r)).
Definition rows_satisfied (cs : list row_constr) : Prop := Forall (fun c => fst c = snd c) cs.

(** opti.py:2120-2283 [apply_scheme].  [dyn] is dyn_f_restr. *)
Definition eq_apply_scheme (dyn : vec -> vec -> vec -> vec -> vec -> vec) (scheme : string) (order n_q N : nat)
  (t_start t_end : R) (params : vec) (v : eq_values) : Res (list row_constr) :=
  let T := t_end - t_start in
  let a := highest n_q (ev_x_d v) in
  let a_c := highest n_q (ev_x_d_c v) in
  let hs := sub_in "hs" scheme in
  match restr_schemes scheme order with
  | None => Err KeyError
  | Some f_restr =>
    Ok (map (fun ii => row_zero (f_restr (mrow ii (ev_x v)) (mrow (ii + 1) (ev_x v)) (mrow ii a) (mrow (ii + 1) a) (T / INR N)
                                   (if hs then mrow ii a_c else []))) (seq 0 N)
        ++ map (fun ii => row_zero (dyn (mrow ii (ev_x v)) (mrow ii (ev_x_d v)) (mrow ii (ev_u v)) (mrow ii (ev_lam v)) params))
             (seq 0 (N + 1))
        ++ (if hs then
              flat_map (fun ii =>
                [ (mrow ii (ev_x_c v),
                   half_x_of scheme order (mrow ii (ev_x v)) (mrow (ii + 1) (ev_x v)) (mrow ii a) (mrow (ii + 1) a) (T / INR N));
                  row_zero (dyn (mrow ii (ev_x_c v)) (mrow ii (ev_x_d_c v)) (mrow ii (ev_u_c v)) (mrow ii (ev_lam_c v)) params) ])
                (seq 0 N)
              ++ (if sub_in "parab" scheme then []
                  else if sub_in "j" scheme then
                    map (fun ii => (mrow ii (ev_u_c v), vadd (vscale 0.6 (mrow ii (ev_u v))) (vscale 0.4 (mrow (ii + 1) (ev_u v)))))
                      (seq 0 N)
                  else map (fun ii => (mrow ii (ev_u_c v), vscale (1 / 2) (vadd (mrow ii (ev_u v)) (mrow (ii + 1) (ev_u v))))) (seq 0 N))
            else []))
  end.
