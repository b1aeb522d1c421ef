(** Model of the dynamics given as a python function: class
    _Function_Dynamics, chords/opti.py:3659-3792.  The casadi expressions are
    read as the functions they denote; a python callable is a function of the
    list of its positional arguments.  The sizes are fixed by dynamic_setup, so
    where casadi raises for mismatched sizes at set-up the model's residual is
    the error. *)
From Coq Require Import String.
From Verif Require Import Prelude PwModel.
Open Scope string_scope.
Open Scope list_scope.
Open Scope R_scope.

(** casadi's [-] of two rows: equal sizes, or one of them of size 1 which is
    repeated; otherwise RuntimeError. *)
Definition cas_sub (a b : vec) : Res vec :=
  if (length a =? length b)%nat then Ok (vsub a b)
  else match a, b with
       | [x], _ => Ok (map (fun y => x - y) b)
       | _, [y] => Ok (map (fun x => x - y) a)
       | _, _ => Err RuntimeError
       end.

Record func_dynamics := {
  fd_f_restr : vec -> vec -> vec -> vec -> vec -> Res vec;      (* x, x_dot, u, lam, params *)
  fd_g_restr : list vec -> vec -> vec -> vec -> Res vec;        (* q_and_ders, u, lam, params *)
}.

(** opti.py:3702-3703, 3722-3775: [LM] gets its positional arguments as a list.
    f_x 3722-3724 and 3765-3775 (reduce_F calls F with the joined blocks);
    g_q 3726-3728; f_x_impl 3730-3743; g_q_impl 3745-3760. *)
Definition function_dynamic_setup (LM : list vec -> vec) (func_kind : string) (n_q n_lambdas order : nat) : Res func_dynamics :=
  if negb (n_lambdas =? 0)%nat then Err NotImplementedError
  else if func_kind =? "f_x" then
    let F_x := fun x u p => LM [x; u; p] in
    Ok {| fd_f_restr := fun x x_dot u lam p => cas_sub x_dot (F_x x u p);
          fd_g_restr := fun qs u lam p => cas_sub (last qs []) (reduce_F F_x (removelast qs) u p) |}
  else if func_kind =? "g_q" then
    let G_q := fun qs u p => LM (qs ++ [u; p]) in
    Ok {| fd_f_restr := fun x x_dot u lam p => cas_sub x_dot (expand_G_cas G_q order x u p);
          fd_g_restr := fun qs u lam p => cas_sub (last qs []) (G_q (removelast qs) u p) |}
  else if func_kind =? "f_x_impl" then
    let F_restr := fun x x_dot u lam p => LM [x; x_dot; u; lam; p] in
    Ok {| fd_f_restr := fun x x_dot u lam p => Ok (F_restr x x_dot u lam p);
          fd_g_restr := fun qs u lam p => Ok (lastn n_q (F_restr (concat (removelast qs)) (concat (tl qs)) u lam p)) |}
  else if func_kind =? "g_q_impl" then
    let G_restr := fun qs u lam p => LM (qs ++ [u; lam; p]) in
    Ok {| fd_f_restr := fun x x_dot u lam p =>
            let x_list := map (fun ii => slice (n_q * ii) (n_q * (ii + 1)) x) (seq 0 order) in
            let x_dot_list := map (fun ii => slice (n_q * ii) (n_q * (ii + 1)) x_dot) (seq 0 order) in
            let x_d_difs := map (fun ii => vsub (nth ii x_dot_list []) (nth (ii + 1) x_list [])) (seq 0 (order - 1)) in
            Ok (G_restr (x_list ++ [last x_dot_list []]) u lam p ++ concat x_d_difs);
          fd_g_restr := fun qs u lam p => Ok (G_restr qs u lam p) |}
  else Err NotImplementedError.
