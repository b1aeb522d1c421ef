(** Problems that meet the hypotheses of the theorems about solving. *)
From Coq Require Import String ZArith Reals List Lra Lia.
From Verif Require Import Prelude PwInterpModel DispatchModel DispatchSpec DispatchProofs SolveModel SolveSpec SolveProofs SolveNames.
Import ListNotations.
Open Scope string_scope.
Open Scope list_scope.
Open Scope R_scope.

(** A solver whose k-th solution is k and takes two seconds; one that fails
    at its fourth call; expressions are numbers and so are their values. *)
Definition ex_solve (st : nat) : nat * R * Res nat := (S st, 2, Ok (S st)).
Definition ex_flaky (st : nat) : nat * R * Res nat := (S st, 2, if Nat.eqb st 3 then Err ValueError else Ok (S st)).
Definition ex_value (sol e : nat) : Res nat := Ok (sol * e)%nat.
Definition ex_stats (st : nat) : nat := st.
Definition ex_iter (v : nat) : Res nat := Ok v.
Definition ex_arrs (keys : list string) : list (string * nat) := combine keys (seq 1 (length keys)).
Definition ex_set_up : set_up nat nat :=
  {| su_opti := 0%nat; su_n_q := 1; su_n_u := 1; su_order := 2; su_mesh := Steps nat 10;
     su_arrs := ex_arrs (arr_keys Equispaced "trapz" 2) |}.
Definition ex_problem : solve_problem nat nat nat nat :=
  {| sp_mode := "equispaced"; sp_scheme := "trapz"; sp_params := 7%nat; sp_set_up := Some ex_set_up; sp_cost := Some 5%nat;
     sp_sol := None; sp_results := None; sp_clock := 100 |}.

Lemma ex_solved : forall n k, solved ex_solve (S n) k (S n + k)%nat (2 * INR (S n)) (S n + k)%nat.
Proof.
  induction n as [|n IH]; intros k.
  - replace (2 * INR 1) with 2 by (cbn; ring). apply solved_one. reflexivity.
  - replace (2 * INR (S (S n))) with (2 + 2 * INR (S n)) by (rewrite !S_INR; ring).
    apply (solved_more _ (S n) k (S k) _ 2 _ (S k)); [reflexivity|].
    replace (S (S n) + k)%nat with (S n + S k)%nat by lia. apply IH.
Qed.

Lemma hypotheses_met :
  (forall n, (0 < n)%nat -> solved ex_solve n 0%nat n (2 * INR n) n) /\
  fails ex_flaky 5 0%nat ValueError /\
  sound ex_solve ex_value ex_stats ex_iter ex_problem /\
  (exists op, Opti_Problem LM_callable "trapz" "zero" = Ok op /\ sp_mode _ _ _ _ ex_problem = op_scheme_mode op /\
     sp_scheme _ _ _ _ ex_problem = op_scheme op) /\
  (exists p', call_solve _ _ _ _ ex_solve ex_value ex_stats ex_iter ex_problem C_simple = (p', Ok tt)).
Proof.
  split; [|split; [|split; [|split]]].
  - intros [|n] Hn; [lia|]. pose proof (ex_solved n 0) as H. rewrite Nat.add_0_r in H. exact H.
  - do 3 (eapply fails_later; [reflexivity|]). eapply fails_now. reflexivity.
  - split; [intros st; exists st; reflexivity|]. intros su H. injection H as <-. split; [reflexivity|split].
    + apply (names_apart ex_set_up Equispaced "trapz" ""); reflexivity.
    + intros st st' d sol _. split; [|split]; intros; eexists; reflexivity.
  - eexists. split; [vm_compute; reflexivity|split; reflexivity].
  - eexists. reflexivity.
Qed.

Lemma ph_same_scheme : exists s s' op op', s <> s' /\
  Opti_Problem LM_callable s "zero" = Ok op /\ Opti_Problem LM_callable s' "zero" = Ok op' /\
  op_scheme op = op_scheme op' /\ names true FBottomUp "LG" s /\ names true FTopDown "LG" s'.
Proof.
  exists "ph_BU_LG", "ph_TD_LG". eexists _, _. split; [discriminate|]. split; [vm_compute; reflexivity|].
  split; [vm_compute; reflexivity|]. split; [reflexivity|]. split; (split; [left; reflexivity|reflexivity]).
Qed.
