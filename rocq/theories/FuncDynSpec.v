(** What it means that a function describes the equations
    q^(M) = g(q, q', ..., q^(M-1), u, params).  No reference to the code. *)
From Verif Require Import Prelude.
Open Scope R_scope.

(** M vectors of n_q numbers. *)
Definition blocks (n_q M : nat) (qs : list vec) : Prop :=
  length qs = M /\ Forall (fun q => length q = n_q) qs.
Definition all_zero (v : vec) : Prop := Forall (fun r => r = 0) v.

(** a residual holds: it is computed and all its entries are 0 *)
Definition holds (r : Res vec) : Prop := exists v, r = Ok v /\ all_zero v.

Section Equations.
Context (n_q M : nat) (g : list vec -> vec -> vec -> vec).

(** [f_x]: the first-order form x' = F(x, u, params) *)
Definition is_f_x (LM : list vec -> vec) : Prop := forall qs u p, blocks n_q M qs ->
  LM [concat qs; u; p] = concat (tl qs) ++ g qs u p.
(** [g_q] *)
Definition is_g_q (LM : list vec -> vec) : Prop := forall qs u p, blocks n_q M qs ->
  LM (qs ++ [u; p]) = g qs u p.
(** [f_x_impl]: M * n_q numbers, the last n_q of them the residuals of the
    equations, the others those of the definitions of the derivatives *)
Definition is_f_x_impl (LM : list vec -> vec) : Prop := forall qs xd u lam p, blocks n_q M qs -> length xd = (M * n_q)%nat ->
  exists kin dyn, LM [concat qs; xd; u; lam; p] = kin ++ dyn /\ length dyn = n_q /\
    (all_zero kin <-> firstn ((M - 1) * n_q) xd = concat (tl qs)) /\
    (all_zero dyn <-> skipn ((M - 1) * n_q) xd = g qs u p).
(** [g_q_impl]: zero exactly on the solutions *)
Definition is_g_q_impl (LM : list vec -> vec) : Prop := forall qs a u lam p, blocks n_q M qs -> length a = n_q ->
  (all_zero (LM ((qs ++ [a]) ++ [u; lam; p])) <-> a = g qs u p).
End Equations.
