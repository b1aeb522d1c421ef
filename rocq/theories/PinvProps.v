(** Properties C74 (with constraints) and C93: inverse dynamics.  Only
    statements. *)
From Coq Require Import Reals List String Sorted.
From Coquelicot Require Import Coquelicot.
From Verif Require Import Prelude PwInterpModel SymModel SymSpec LagrModel LagrSpec LagrExamples PinvModel PinvSpec PinvProofs PinvExamples.
Import ListNotations.
Open Scope R_scope.
Open Scope list_scope.

(** ** C74: inverse dynamics of systems with constraints *)

(** SimpLagrangesMethod: on a motion that obeys the equations with multipliers l the result is the controls plus the pseudoinverse of the constraint forces; so it is right without constraints, and not with them: *)
Theorem C74_constraints :
  forall s us E h pinv g t, NoDup (lg_qs s) -> up_to 1 (lg_L s) ->
  (forall i, (i < lg_n s)%nat -> no_acc (lg_qs s) (lg_forces s i)) ->
  motion g -> (forall x, smooth_at (g x) (lg_L s)) -> affine_controls s us (g t) E h ->
  (forall k l, (k < length us)%nat -> (l < length us)%nat ->
     rsum (lg_n s) (fun i => ev (g t) (pinv (lg_n s) (length us) (pinv_E s us)) k i * E i l) = delta k l) ->
  forall l, obeys s g t l -> forall k, (k < length us)%nat ->
  eval (g t) (sym_pinv_dyn_simp pinv s us k) =
  g t (nth k us (Static ""%string)) +
  rsum (lg_n s) (fun i => ev (g t) (pinv (lg_n s) (length us) (pinv_E s us)) k i * constraint_force s (g t) l i).
Proof. exact (fun s us E h pinv g t nd u1 na mo sm af P l => pinv_with_forces s us E h pinv g t nd u1 na mo sm af l P). Qed.
Print Assumptions C74_constraints.

(** Two bodies kept opposite, the first pushed with u = 1: the result is 1/2. *)
Theorem C74_constraints_refuted :
  exists s us E h pinv g t l, NoDup (lg_qs s) /\ up_to 1 (lg_L s) /\ (forall i, no_acc (lg_qs s) (lg_forces s i)) /\
  motion g /\ (forall x, smooth_at (g x) (lg_L s)) /\ affine_controls s us (g t) E h /\
  (forall k l, (k < length us)%nat -> (l < length us)%nat ->
     rsum (lg_n s) (fun i => ev (g t) (pinv (lg_n s) (length us) (pinv_E s us)) k i * E i l) = delta k l) /\
  (forall x, constrained s (g x)) /\ obeys s g t l /\
  eval (g t) (sym_pinv_dyn_simp pinv s us 0%nat) = / 2 /\ g t (nth 0 us (Static ""%string)) = 1.
Proof. exact (ex_intro _ hand (ex_intro _ hand_us (ex_intro _ hand_E (ex_intro _ (fun _ => 0) (ex_intro _ pinv_tr (ex_intro _ hand_g (ex_intro _ 0 (ex_intro _ (fun _ => - / 2) (conj two_names (conj L_free_up (conj hand_noacc (conj hand_motion (conj (fun x => L_free_smooth (hand_g x)) (conj (hand_affine (hand_g 0)) (conj (hand_pinv (hand_g 0)) (conj hand_constrained (conj (hand_obeys 0) (hand_wrong 0)))))))))))))))))). Qed.
Print Assumptions C74_constraints_refuted.

(** ImplicitLagrangesMethod.sym_pinv_dyn always fails with constraints. *)
Theorem C74_implicit_constraints_refuted :
  forall pinv tidy s us, lg_coneqs s <> [] -> us <> [] -> implicit_sym_pinv_dyn pinv tidy true s us = Err ValueError.
Proof. exact (implicit_constraints). Qed.
Print Assumptions C74_implicit_constraints_refuted.

(** ** C93: numeric inverse dynamics *)

(** The parameters are the names in the product of the mass matrix and the forces, but the controls and a parameter called dummy, in alphabetical order.  The values are those of sym_pinv_dyn if it has no other symbols; if it has, every call is a NameError. *)
Theorem C93_function :
  forall pinv tidy s us F, tidies tidy -> simp_num_pinv_dyn pinv tidy true s us = Ok F ->
  exists ps, StronglySorted (fun x y => (x <=? y)%string = true) ps /\ NoDup ps /\
  (forall x, In x ps <-> x <> "dummy"%string /\ ~ In (Static x) us /\ exists i, (i < lg_n s)%nat /\ has_name x (tidy (emulv (lg_n s) (m_d s) (f_d s) i))) /\
  forall rho, let call := F (values_of s 0 rho) (values_of s 1 rho) (values_of s 2 rho) (map (fun x => rho (Static x)) ps) in
    ((forall k, (k < length us)%nat -> only_args s ps (tidy (sym_pinv_dyn_simp pinv s us k))) ->
       call = Ok (map (fun k => eval rho (sym_pinv_dyn_simp pinv s us k)) (seq 0 (length us)))) /\
    ((exists k, (k < length us)%nat /\ ~ only_args s ps (tidy (sym_pinv_dyn_simp pinv s us k))) -> call = Err NameError).
Proof. exact (num_pinv_call). Qed.
Print Assumptions C93_function.

(** So on a motion that obeys the equations it gives the controls.  Missing: systems for which no function is made (below), and parameters that are not in that product. *)
Theorem C93_controls_partial :
  forall pinv tidy s us E h g t F, tidies tidy -> simp_num_pinv_dyn pinv tidy true s us = Ok F ->
  NoDup (lg_qs s) -> up_to 1 (lg_L s) ->
  (forall i, (i < lg_n s)%nat -> no_acc (lg_qs s) (lg_forces s i)) ->
  motion g -> (forall x, smooth_at (g x) (lg_L s)) -> affine_controls s us (g t) E h ->
  (forall k l, (k < length us)%nat -> (l < length us)%nat ->
     rsum (lg_n s) (fun i => ev (g t) (pinv (lg_n s) (length us) (pinv_E s us)) k i * E i l) = delta k l) ->
  (forall i, (i < lg_n s)%nat -> euler_lagrange (fun r => eval r (lg_L s)) (lg_qs s) i g t = eval (g t) (lg_forces s i)) ->
  exists ps, (forall x, In x ps <-> x <> "dummy"%string /\ ~ In (Static x) us /\ exists i, (i < lg_n s)%nat /\ has_name x (tidy (emulv (lg_n s) (m_d s) (f_d s) i))) /\
  ((forall k, (k < length us)%nat -> only_args s ps (tidy (sym_pinv_dyn_simp pinv s us k))) ->
   F (values_of s 0 (g t)) (values_of s 1 (g t)) (values_of s 2 (g t)) (map (fun x => g t (Static x)) ps) = Ok (map (g t) us)).
Proof. exact (num_pinv_controls). Qed.
Print Assumptions C93_controls_partial.

(** Without constraints there is a function exactly if the dynamic symbols are coordinates or controls. *)
Theorem C93_made :
  forall pinv tidy s us, us <> [] -> lg_coneqs s = [] -> (0 < lg_n s)%nat ->
  let known := forall i x k, (i < lg_n s)%nat -> In (Dyn x k) (atoms (tidy (emulv (lg_n s) (m_d s) (f_d s) i))) -> In x (lg_qs s) \/ In (Dyn x 0) us in
  ((exists F, simp_num_pinv_dyn pinv tidy true s us = Ok F) <-> known) /\
  (~ known -> simp_num_pinv_dyn pinv tidy true s us = Err AttributeError).
Proof. exact (num_pinv_made). Qed.
Print Assumptions C93_made.

(** It takes as many positions, speeds and accelerations as coordinates, and returns as many numbers as controls. *)
Theorem C93_lengths :
  forall pinv tidy s us F q v a p x, simp_num_pinv_dyn pinv tidy true s us = Ok F -> F q v a p = Ok x ->
  length q = lg_n s /\ length v = lg_n s /\ length a = lg_n s /\ length x = length us.
Proof. exact (num_pinv_lengths). Qed.
Print Assumptions C93_lengths.

(** With constraints it always fails. *)
Theorem C93_constraints_refuted :
  forall pinv tidy s us, lg_coneqs s <> [] -> us <> [] -> simp_num_pinv_dyn pinv tidy true s us = Err ValueError.
Proof. exact (num_constraints). Qed.
Print Assumptions C93_constraints_refuted.

(** That of ImplicitLagrangesMethod always fails. *)
Theorem C93_implicit_refuted :
  forall pinv tidy formed s us F, implicit_num_pinv_dyn pinv tidy formed s us <> Ok F.
Proof. exact (implicit_num). Qed.
Print Assumptions C93_implicit_refuted.

(** A spring on a base that moves, y(t). *)
Theorem C93_moving_refuted :
  simp_num_pinv_dyn pinv1 neat true moving spring_us = Err AttributeError /\ tidies neat /\ lg_coneqs moving = [].
Proof. exact (conj moving_fails (conj neat_tidies eq_refl)). Qed.
Print Assumptions C93_moving_refuted.

(** A mass with a spring. *)
Example C93_example :
  tidies neat /\ (exists F, simp_num_pinv_dyn pinv1 neat true spring spring_us = Ok F /\
    forall q v a k m, F [q] [v] [a] [k; m] = Ok [m * a + k * q]) /\
  NoDup (lg_qs spring) /\ up_to 1 (lg_L spring) /\ (forall i, no_acc (lg_qs spring) (lg_forces spring i)) /\
  motion spring_g /\ (forall x, smooth_at (spring_g x) (lg_L spring)) /\ affine_controls spring spring_us (spring_g 0) delta (fun _ => 0) /\
  (forall k l, (k < 1)%nat -> (l < 1)%nat -> rsum 1 (fun i => ev (spring_g 0) (pinv1 1 1 (pinv_E spring spring_us)) k i * delta i l) = delta k l) /\
  euler_lagrange (fun r => eval r (lg_L spring)) (lg_qs spring) 0%nat spring_g 0 = eval (spring_g 0) (lg_forces spring 0%nat) /\
  (forall k ps, (k < 1)%nat -> In "k"%string ps -> In "m"%string ps -> only_args spring ps (neat (sym_pinv_dyn_simp pinv1 spring spring_us k))).
Proof. exact (conj neat_tidies (conj spring_made spring_hypotheses)). Qed.

(** ** Symbols that an expression depends on *)

(** find_dyn_dependencies: each dynamic symbol once, for itself and all its derivatives. *)
Theorem C93_dependencies :
  forall l, Forall (fun a => is_dyn a = true) l ->
  NoDup (find_dyn_dependencies l) /\ forall b, In b (find_dyn_dependencies l) <-> exists n k, In (Dyn n k) l /\ b = Dyn n 0.
Proof. exact (dependencies_spec). Qed.
Print Assumptions C93_dependencies.
