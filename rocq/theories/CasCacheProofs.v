(** Proofs about the functions kept in the object LM. *)
From Coq Require Import Reals List String Lia.
From Verif Require Import Prelude SymModel SymSpec CasModel CasSpec CasCacheModel CasNameProofs CasSetupProofs CasExamples.
Import ListNotations.
Open Scope list_scope.
Section Proofs.
Variable dyn_order : expr -> list atom.
Variable sym_order : expr -> list string.
Notation fresh := (fresh_setup dyn_order sym_order).
Notation run := (setups dyn_order sym_order).
Notation step := (dynamic_setup dyn_order sym_order).
(** the result of the first of the calls that succeeds *)
Fixpoint first_ok (q : list atom) (d : lm_dynamics) (us : list uvars) : option setup :=
  match us with
  | [] => None
  | u :: us' => match fresh q d u with Ok s => Some s | Err _ => first_ok q d us' end
  end.
Lemma fresh_sizes q d u s : fresh q d u = Ok s ->
  su_n_q s = length q /\ match d with Lm_explicit _ => su_n_lambdas s = 0%nat | Lm_implicit _ _ => True end.
Proof.
  destruct d as [RHS|ix iq]; cbn; unfold explicit_setup, implicit_setup.
  - destruct (CasModel.arguments_of _ _ _ _ _ _ _) as [r|]; cbn [rbind]; [|discriminate].
    destruct (get_f_g_funcs _ _ _ _ _) as [f|]; cbn [rbind]; [|discriminate]. intros H. injection H as <-. auto.
  - destruct (states_of q) as [xs|]; cbn [rbind]; [|discriminate].
    destruct (CasModel.arguments_of _ _ _ _ _ _ _) as [r|]; cbn [rbind]; [|discriminate].
    destruct (implicit_dynamic_x_to_casadi_function _ _ _ _ _) as [f|]; cbn [rbind]; [|discriminate].
    destruct (implicit_dynamic_q_to_casadi_function _ _ _ _ _) as [g|]; cbn [rbind]; [|discriminate].
    intros H. injection H as <-. auto.
Qed.
Lemma kept_step q d s u : (exists u0, fresh q d u0 = Ok s) ->
  step {| lm_q := q; lm_dyn := d; lm_kept := Some s |} u = (Ok s, {| lm_q := q; lm_dyn := d; lm_kept := Some s |}).
Proof.
  intros [u0 H]. apply fresh_sizes in H. unfold dynamic_setup. cbn [lm_kept lm_q lm_dyn]. destruct s as [nq nu nl ps f g]. cbn in *.
  destruct H as [-> H]. destruct d; [subst nl|]; reflexivity.
Qed.
Lemma kept_run q d s us : (exists u0, fresh q d u0 = Ok s) ->
  run {| lm_q := q; lm_dyn := d; lm_kept := Some s |} us = (map (fun _ => Ok s) us, {| lm_q := q; lm_dyn := d; lm_kept := Some s |}).
Proof.
  intros H. induction us as [|u us IH]; [reflexivity|]. cbn [setups map]. rewrite kept_step by auto. now rewrite IH.
Qed.
(** After any calls, a call gives what the first successful call gave, and
    without one what it gives for a new object. *)
Lemma after_history q d us u :
  fst (step (snd (run (new q d) us)) u) = match first_ok q d us with Some s => Ok s | None => fresh q d u end.
Proof.
  induction us as [|v us IH]; cbn [setups first_ok snd].
  - unfold dynamic_setup, new. cbn [lm_kept lm_q lm_dyn]. now destruct (fresh q d u).
  - unfold dynamic_setup at 2. cbn [lm_kept lm_q lm_dyn new]. destruct (fresh q d v) as [s|e] eqn:E.
    + rewrite kept_run by eauto. cbn [snd]. rewrite kept_step by eauto. reflexivity.
    + change {| lm_q := q; lm_dyn := d; lm_kept := None |} with (new q d) in *. destruct (run (new q d) us) as [rs o2] eqn:Er. cbn [snd] in *. exact IH.
Qed.
Lemma same_controls q d us u : (forall v, In v us -> v = u) -> fst (step (snd (run (new q d) us)) u) = fresh q d u.
Proof.
  intros H. rewrite after_history. induction us as [|v us IH]; [reflexivity|]. cbn [first_ok]. rewrite (H v) by (left; auto).
  destruct (fresh q d u) eqn:E; [reflexivity|]. apply IH. intros w Hw. apply H. right; auto.
Qed.
Lemma implicit_any q ix iq us u : fst (step (snd (run (new q (Lm_implicit ix iq)) us)) u) = fresh q (Lm_implicit ix iq) u.
Proof.
  rewrite after_history. induction us as [|v us IH]; [reflexivity|]. cbn [first_ok].
  change (fresh q (Lm_implicit ix iq) v) with (fresh q (Lm_implicit ix iq) u).
  destruct (fresh q (Lm_implicit ix iq) u) eqn:E; [reflexivity|]. exact IH.
Qed.
Lemma first_success q d us v vs s u : (forall w, In w us -> exists e, fresh q d w = Err e) -> fresh q d v = Ok s ->
  fst (step (snd (run (new q d) (us ++ v :: vs))) u) = Ok s.
Proof.
  intros H E. rewrite after_history. induction us as [|w us IH]; cbn [app first_ok]; [now rewrite E|].
  destruct (H w (or_introl eq_refl)) as [e Ew]. rewrite Ew. apply IH. intros w' Hw. apply H. right; auto.
Qed.
Lemma no_success q d us u : (forall w, In w us -> exists e, fresh q d w = Err e) -> fst (step (snd (run (new q d) us)) u) = fresh q d u.
Proof.
  intros H. rewrite after_history. induction us as [|w us IH]; cbn [first_ok]; [reflexivity|].
  destruct (H w (or_introl eq_refl)) as [e Ew]. rewrite Ew. apply IH. intros w' Hw. apply H. right; auto.
Qed.
(** The second problem takes the controls of the first. *)
Lemma controls_kept q d u u' s : fresh q d u = Ok s -> fst (step (snd (run (new q d) [u])) u') = Ok s.
Proof. intros H. rewrite after_history. cbn [first_ok]. now rewrite H. Qed.
End Proofs.
Lemma other_controls : exists q RHS u u' s s', u' = U_list [Static "F"] /\
  fresh_setup dyns plain q (Lm_explicit RHS) u' = Ok s' /\ su_n_u s' = 1%nat /\ su_params_sym s' = ["r"%string] /\
  fst (dynamic_setup dyns plain (snd (setups dyns plain (new q (Lm_explicit RHS)) [u])) u') = Ok s /\ su_n_u s = 0%nat /\ su_params_sym s = ["F"; "r"]%string.
Proof.
  assert (A : setup_shape (explicit_setup dyns plain (coords 0 ["theta"%string]) rhs_F U_none) = Some (1, 0, 0, ["F"; "r"])%nat%string) by (vm_compute; reflexivity).
  destruct controls_F as [B _]. apply setup_shape_ok in A, B. destruct A as (s & Es & Ts), B as (s' & Es' & Ts').
  injection Ts as _ U1 _ P1. injection Ts' as _ U2 _ P2.
  exists (coords 0 ["theta"%string]), rhs_F, U_none, (U_list [Static "F"]), s, s'. split; [reflexivity|]. split; [exact Es'|]. split; [exact U2|]. split; [exact P2|].
  split; [|auto]. apply controls_kept. exact Es.
Qed.
