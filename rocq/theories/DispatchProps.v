(** Properties C36 and C43: names.  Only statements.  [names], [plain_names],
    [guess_names], [documented_names], [class_of], [mode_of] and [dyn_of] are in
    DispatchSpec. *)
From Coq Require Import String DecimalString.
From Verif Require Import Prelude DispatchModel DispatchSpec DispatchProofs.
Open Scope string_scope.
Open Scope list_scope.

(** ** C36  Scheme names *)

Theorem C36_accepted :
  forall LM ph f base s g, names ph f base s -> In g guess_names ->
  exists p, Opti_Problem LM s g = Ok p /\ op_sch p = class_of ph f /\
    op_scheme_mode p = mode_of ph f /\ op_scheme p = base.
Proof. exact (dispatch_ok). Qed.
Print Assumptions C36_accepted.

Theorem C36_rejected :
  forall LM s g, (~ exists ph f base, names ph f base s) \/ ~ In g guess_names ->
  Opti_Problem LM s g = Err NotImplementedError.
Proof. exact (dispatch_reject). Qed.
Print Assumptions C36_rejected.

Theorem C36_unambiguous :
  forall ph f base ph' f' base' s, names ph f base s -> names ph' f' base' s ->
  ph = ph' /\ f = f' /\ base = base'.
Proof. exact (dispatch_unique). Qed.
Print Assumptions C36_unambiguous.

Theorem C36_dynamics :
  forall LM s g p, Opti_Problem LM s g = Ok p -> op_dyn p = dyn_of LM.
Proof. exact (dispatch_dyn). Qed.
Print Assumptions C36_dynamics.

(** All documented names but one. *)
Theorem C36_documented_partial :
  forall LM s g, In s documented_names -> s <> "BU_LG_inv" -> In g guess_names ->
  exists p, Opti_Problem LM s g = Ok p.
Proof. exact (documented_partial). Qed.
Print Assumptions C36_documented_partial.

(** One documented name is rejected. *)
Theorem C36_documented_refuted :
  forall LM g, In "BU_LG_inv" documented_names /\
  Opti_Problem LM "BU_LG_inv" g = Err NotImplementedError.
Proof. exact (documented_refuted). Qed.
Print Assumptions C36_documented_refuted.

(** A dynamics object that is neither known nor callable is accepted, and the problem has no dynamic_setup. *)
Theorem C36_no_dynamics_refuted :
  forall s g, In s ["trapz"] -> In g guess_names ->
  exists p, Opti_Problem LM_other s g = Ok p /\ op_dyn p = None.
Proof. exact (other_LM). Qed.
Print Assumptions C36_no_dynamics_refuted.

Example C36_hypotheses :
  names true FBottomUp "LGR_inv" "ph_BU_LGR_inv" /\ In "lin" guess_names.
Proof. exact (conj (conj (or_intror (or_intror (or_intror (or_intror (or_intror (or_intror (or_introl eq_refl))))))) eq_refl) (or_intror (or_introl eq_refl))). Qed.

Example C36_rejected_hypotheses :
  ~ In "linear" guess_names.
Proof. exact (fun H => match H with or_introl e => eq_ind "zero" (fun s => match s with "zero" => True | _ => False end) I _ e | or_intror H => match H with or_introl e => eq_ind "lin" (fun s => match s with "lin" => True | _ => False end) I _ e | or_intror H => match H with or_introl e => eq_ind "waypoints" (fun s => match s with "waypoints" => True | _ => False end) I _ e | or_intror H => match H with or_introl e => eq_ind "custom" (fun s => match s with "custom" => True | _ => False end) I _ e | or_intror H => H end end end end). Qed.

(** ** C43  Result names *)

Theorem C43_length :
  forall order, length (get_q_and_ders_names order) = (order + 1)%nat.
Proof. exact (names_length). Qed.
Print Assumptions C43_length.

Theorem C43_distinct :
  forall order, NoDup (get_q_and_ders_names order).
Proof. exact (names_NoDup). Qed.
Print Assumptions C43_distinct.

Theorem C43_prefix :
  forall m n, (m <= n)%nat -> firstn (m + 1) (get_q_and_ders_names n) = get_q_and_ders_names m.
Proof. exact (names_prefix). Qed.
Print Assumptions C43_prefix.

Theorem C43_values :
  forall order k, (k <= order)%nat ->
  nth_error (get_q_and_ders_names order) k =
  Some (match k with 0 => "q" | 1 => "v" | 2 => "a" | 3 => "jerk" | 4 => "snap" | 5 => "crackle" | 6 => "pop"
        | _ => String.append "d" (String.append (NilEmpty.string_of_uint (Nat.to_uint k)) "q") end)%nat.
Proof. exact (names_values). Qed.
Print Assumptions C43_values.

Example C43_order8 :
  nth_error (get_q_and_ders_names 8) 8 = Some "d8q".
Proof. exact (eq_refl). Qed.
