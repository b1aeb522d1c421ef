(** Concrete cases for the statements of LifeProps. *)
From Coq Require Import String Lra.
From Verif Require Import Prelude PreludeFacts PwModel DispatchModel LifeModel LifeSpec FuncDynModel FuncDynSpec FuncDynProofs.
Open Scope list_scope.
Open Scope R_scope.

Definition ex_ps (c : sch_class) : nat -> opti_problem := fun i => Build_opti_problem (Some Explicit_Dynamics) c Lin_init "x"%string "LG"%string.

Lemma ex_history : exists ps h, op_dyn (ps 0%nat) <> None /\ op_sch (ps 0%nat) = multi_pseudospectral /\ without is_opti_setup 0 h /\
  without is_dynamic_setup 0 h /\ (2 <= length h)%nat.
Proof.
  exists (ex_ps multi_pseudospectral), [Build_call 1 (M_dynamic_setup 3) None; Build_call 1 (M_opti_setup 3) (Some 4%nat); Build_call 0 M_apply_scheme None].
  repeat split; try discriminate; try (cbn; lia); repeat constructor; cbn; discriminate.
Qed.
Lemma ex_order : exists ps ms, op_dyn (ps 0%nat) <> None /\ Forall (fun m => really_offered (op_sch (ps 0%nat)) m = true) ms /\
  cost_before_solve false ms = true /\ existsb sets_cost ms = true /\ existsb solves ms = true.
Proof.
  exists (ex_ps Equispaced), [M_u_sq_cost; M_apply_scheme; M_initial_guess 1; M_simple_solve].
  repeat split; try discriminate. repeat constructor.
Qed.

(** q'' = q + u q' for two coordinates *)
Definition ex_g (qs : list vec) (u p : vec) : vec :=
  match qs with
  | [[a; b]; [c; d]] => [a + vnth u 0 * c; b + vnth u 0 * d]
  | _ => [0; 0]
  end.
Lemma ex_blocks qs : blocks 2 2 qs -> exists a b c d, qs = [[a; b]; [c; d]].
Proof.
  intros [L F]. destruct qs as [|x [|y [|? ?]]]; try discriminate. inversion F as [|? ? H1 F1]; subst. inversion F1 as [|? ? H2 F2]; subst.
  destruct x as [|a [|b [|? ?]]]; try discriminate. destruct y as [|c [|d [|? ?]]]; try discriminate. eauto.
Qed.
Definition ex_F (args : list vec) : vec :=
  match args with [[a; b; c; d]; u; p] => [c; d] ++ ex_g [[a; b]; [c; d]] u p | _ => [] end.
Definition ex_G (args : list vec) : vec := match args with [q; v; u; p] => ex_g [q; v] u p | _ => [] end.
Definition ex_FI (args : list vec) : vec :=
  match args with
  | [[a; b; c; d]; xd; u; lam; p] => vsub (firstn 2 xd) [c; d] ++ vsub (skipn 2 xd) (ex_g [[a; b]; [c; d]] u p)
  | _ => []
  end.
Definition ex_GI (args : list vec) : vec := match args with [q; v; a; u; lam; p] => vsub a (ex_g [q; v] u p) | _ => [] end.

Lemma ex_kinds : exists g F G FI GI, (forall qs u p, blocks 2 2 qs -> length (g qs u p) = 2%nat) /\
  is_f_x 2 2 g F /\ is_g_q 2 2 g G /\ is_f_x_impl 2 2 g FI /\ is_g_q_impl 2 2 g GI /\
  g [[1;2];[3;4]] [5] [] <> g [[1;2];[3;4]] [6] [].
Proof.
  exists ex_g, ex_F, ex_G, ex_FI, ex_GI.
  split; [intros qs u p B; destruct (ex_blocks qs B) as [a [b [c [d ->]]]]; reflexivity|].
  split; [intros qs u p B; destruct (ex_blocks qs B) as [a [b [c [d ->]]]]; reflexivity|].
  split; [intros qs u p B; destruct (ex_blocks qs B) as [a [b [c [d ->]]]]; reflexivity|].
  split.
  { intros qs xd u lam p B L. destruct (ex_blocks qs B) as [a [b [c [d ->]]]].
    destruct xd as [|x0 [|x1 [|x2 [|x3 [|? ?]]]]]; try discriminate.
    exists (vsub [x0; x1] [c; d]), (vsub [x2; x3] (ex_g [[a; b]; [c; d]] u p)). split; [reflexivity|]. split; [reflexivity|].
    split; apply vsub_zero; reflexivity. }
  split.
  { intros qs a u lam p B L. destruct (ex_blocks qs B) as [q0 [q1 [v0 [v1 ->]]]]. cbn [app ex_GI]. apply vsub_zero. exact L. }
  cbn. intros H. injection H as H _. lra.
Qed.
