From Coq Require Import String Ascii.
From Coquelicot Require Import Coquelicot.
From Verif Require Import Prelude PreludeFacts SymModel SymSpec SymProofs LagrModel LagrSpec LagrFacts LagrProofs LagrMoreProofs FuncDynSpec FuncDynProofs CasModel CasSpec CasLagrSpec CasProofs CasRhsProofs CasNameProofs CasDynProofs CasResProofs CasImplProofs CasSetupProofs.
Open Scope R_scope.
Open Scope list_scope.

Lemma all_zero_nth l : all_zero l <-> forall i, (i < length l)%nat -> nth i l 0 = 0.
Proof.
  unfold all_zero. rewrite Forall_forall. split.
  - intros H i Hi. apply H, nth_In; auto.
  - intros H x Hx. destruct (In_nth _ _ 0 Hx) as (i & Hi & <-). auto.
Qed.
Lemma implicit_zero s g t : NoDup (lg_qs s) -> regular s g -> (all_zero (map (eval (g t)) (implicit_dynamics_q s)) <-> constrained_motion s g t).
Proof.
  intros ND (U1 & NA & UC & MO & SL & SC). rewrite all_zero_nth, map_length, implicit_length. unfold lg_n.
  assert (EN : forall i, (i < length (lg_qs s) + length (lg_coneqs s))%nat -> nth i (map (eval (g t)) (implicit_dynamics_q s)) 0 = eval (g t) (nth i (implicit_dynamics_q s) (Num 0))).
  { intros i Hi. rewrite (nth_indep _ 0 (eval (g t) (Num 0))) by (rewrite map_length, implicit_length; exact Hi). apply map_nth. }
  assert (K1 : forall i, (i < length (lg_qs s))%nat -> eval (g t) (nth i (implicit_dynamics_q s) (Num 0)) =
     euler_lagrange (fun r => eval r (lg_L s)) (lg_qs s) i g t - eval (g t) (lg_forces s i)
     - rsum (length (lg_coneqs s)) (fun k => g t (lam k) * partial (fun r => eval r (nth k (lg_coneqs s) (Num 0))) (lg_q s 1 i) (g t))) by (intros i Hi; apply (implicit_motion s g t i ND U1 (NA i Hi) Hi MO SL (fun k Hk => SC t k Hk))).
  assert (K2 : forall k, (k < length (lg_coneqs s))%nat -> is_derive (fun x => eval (g x) (nth k (lg_coneqs s) (Num 0))) t (eval (g t) (nth (length (lg_qs s) + k) (implicit_dynamics_q s) (Num 0)))).
  { intros k Hk. apply (implicit_con_motion s g t k ND (UC k Hk) Hk MO (SC t k Hk)). }
  split.
  - intros H. split.
    + intros i Hi. specialize (H i ltac:(lia)). rewrite EN in H by lia. rewrite K1 in H by lia. match type of H with ?a - ?b - ?c = 0 => change (a = b + c); lra end.
    + intros k Hk. specialize (H (length (lg_qs s) + k)%nat ltac:(lia)). rewrite EN in H by lia. specialize (K2 k Hk). rewrite H in K2. exact K2.
  - intros [A B] i Hi. rewrite EN by lia. destruct (lt_dec i (length (lg_qs s))) as [L|G].
    + rewrite K1 by auto. pose proof (A i L) as E. match type of E with ?a = ?b + ?c => change (a - b - c = 0); lra end.
    + replace i with (length (lg_qs s) + (i - length (lg_qs s)))%nat by lia. rewrite <- (is_derive_unique _ _ _ (K2 (i - length (lg_qs s))%nat ltac:(lia))). apply is_derive_unique, B. lia.
Qed.

Section Orders.
Variable dyn_order : expr -> list atom.
Variable sym_order : expr -> list string.
Hypothesis IT : iterates dyn_order sym_order.
Notation arguments_of := (arguments_of dyn_order sym_order).
Notation implicit_setup := (implicit_setup dyn_order sym_order).

(** An implicit problem of a Lagrangian system: its residuals vanish exactly on
    the motions of the system. *)
Theorem lagrange_setup s impl_x U st : NoDup (lg_qs s) -> Forall standard_name (lg_qs s) ->
  x_clear (lg_qs s) ->
  (forall k, (k < length (lg_coneqs s))%nat -> ~ In ("lam" ++ str_nat (k + 1))%string (lg_qs s)) ->
  implicit_dynamics_x s = Ok impl_x -> implicit_setup (coords 0 (lg_qs s)) impl_x (implicit_dynamics_q s) U = Ok st ->
  exists rx rq, arguments_of impl_x (Q_list (coords 0 (x_names (2 * length (lg_qs s))))) U_none true false = Ok rx /\
  arguments_of (implicit_dynamics_q s) (Q_list (coords 0 (lg_qs s))) U_none true true = Ok rq /\
  forall g t, regular s g ->
  (forall val, (forall a, In a (coords 0 (lg_qs s) ++ coords 1 (lg_qs s) ++ coords 2 (lg_qs s) ++ symbols_in (implicit_dynamics_q s)) -> val (called a) = g t a) ->
     (holds (su_g st (map (g t) (coords 0 (lg_qs s))) (map (g t) (coords 1 (lg_qs s))) (map (g t) (coords 2 (lg_qs s))) (map val (r_u rq))
       (map (fun s => val (Static s)) (r_lambdas rq)) (map (fun s => val (Static s)) (r_params rq))) <-> constrained_motion s g t)) /\
  (forall rho val, follows (lg_qs s) (g t) rho ->
     (forall n k, ~ In n (lg_qs s) -> rho (Dyn n k) = g t (Dyn n k)) -> (forall n, rho (Static n) = g t (Static n)) ->
     (forall a, In a (coords 0 (x_names (2 * length (lg_qs s))) ++ coords 1 (x_names (2 * length (lg_qs s))) ++ symbols_in impl_x) -> val (called a) = rho a) ->
     (holds (su_f st (map (g t) (coords 0 (lg_qs s) ++ coords 1 (lg_qs s))) (map (g t) (coords 1 (lg_qs s) ++ coords 2 (lg_qs s))) (map val (r_u rx))
       (map (fun s => val (Static s)) (r_lambdas rx)) (map (fun s => val (Static s)) (r_params rx))) <-> constrained_motion s g t)).
Proof.
  intros ND HS NX NL EX H.
  assert (SF : state_form (lg_qs s) (implicit_dynamics_q s) impl_x).
  { destruct (implicit_x s impl_x ND NX NL EX) as (A & B & C). unfold lg_n in *. split; [rewrite implicit_length; exact A|]. split; [exact B|]. intros rho i Hi. apply C. rewrite implicit_length in Hi. exact Hi. }
  destruct (implicit_setup_ok _ _ IT _ _ _ _ _ ND HS NX SF H) as (rx & rq & Hx & Hq & _ & _ & _ & G & F).
  exists rx, rq. split; auto. split; auto. intros g t RG. split.
  - intros val HV. rewrite (G _ _ HV). rewrite <- (implicit_zero s g t ND RG). split; [intros (v & E & Z); injection E as <-; auto|intros Z; eexists; split; [reflexivity|auto]].
  - intros rho val HF H1 H2 HV. rewrite (F _ _ _ HF H1 H2 HV). apply (implicit_zero s g t ND RG).
Qed.
End Orders.
