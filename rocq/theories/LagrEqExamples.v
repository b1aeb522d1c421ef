From Coq Require Import String Lia Lra FunctionalExtensionality.
From Coquelicot Require Import Coquelicot.
From Verif Require Import Prelude PreludeFacts PwInterpModel SymModel SymSpec SymProofs LagrModel LagrSpec LagrFacts LagrProofs LagrExamples LagrEqModel LagrEqSpec LagrEqProofs LagrEqRhsProofs.
From Verif Require PwInterpProofs.
Open Scope R_scope.
Open Scope list_scope.

(** ** The LagrangesMethod of the repository *)
Theorem equations_method simplify expand D T U names eqs s rho i : keeps_values D simplify -> keeps_values D expand -> line_open D -> smooth_on D T -> smooth_on D U ->
  ~ In time (atoms T ++ atoms U) -> lg_L s = Minus T U -> lg_qs s = names ->
  get_lagr_eqs simplify expand T U (C_list (map (fun n => Dyn n 0) names)) = Ok eqs -> D rho -> (i < length names)%nat ->
  eval rho (nth i eqs (Num 0)) =
  rsum (lg_n s) (fun j => eval rho (m_d s i j) * rho (lg_q s 2 j)) +
  rsum (lg_n s) (fun j => eval rho (C_matrix s i j) * rho (lg_q s 1 j)) + eval rho (G_matrix s i).
Proof.
  intros Ks Ke Do ST SU NT EL Eq E Hr Hi.
  destruct (get_parts simplify expand D Ks Ke Do T U ST SU _ eqs i E) as (n & k & En & _ & V & _); [cbn [coordinate_list]; now rewrite map_length|].
  cbn [coordinate_list] in En. rewrite (nth_indep _ _ (Dyn "" 0)) in En by (rewrite map_length; auto). rewrite (map_nth (fun n => Dyn n 0)) in En. injection En as <- <-.
  rewrite V, mcg by auto. unfold term1, term2, lg_q, qd, plain_eq. rewrite EL, Eq, eval_Minus, ddt_t_split. rewrite (diff_none rho time); [ring|].
  intros H. apply atoms_diff in H. apply NT, H.
Qed.

(** ** An example: a mass pushed by cos t *)
Fixpoint mirror (e : expr) : expr :=
  match e with
  | Plus a b => Plus (mirror b) (mirror a)
  | Times a b => Times (mirror b) (mirror a)
  | Func f k a => Func f k (mirror a)
  | _ => e
  end.
Lemma mirror_value rho e : eval rho (mirror e) = eval rho e.
Proof. induction e as [r|a|e1 IH1 e2 IH2|e1 IH1 e2 IH2|f k e IH]; cbn [mirror eval]; rewrite ?IH1, ?IH2, ?IH; ring. Qed.
Lemma mirror_atoms e a : In a (atoms (mirror e)) <-> In a (atoms e).
Proof. induction e as [r|b|e1 IH1 e2 IH2|e1 IH1 e2 IH2|f k e IH]; cbn [mirror atoms]; rewrite ?in_app_iff; tauto. Qed.
Lemma mirror_smooth rho e : smooth_at rho e -> smooth_at rho (mirror e).
Proof.
  induction e as [r|b|e1 IH1 e2 IH2|e1 IH1 e2 IH2|f k e IH]; cbn [mirror smooth_at]; try tauto.
  intros [H H']. split; [auto|]. intros j. rewrite mirror_value. apply H'.
Qed.
Lemma mirror_outside a e : outside a e -> outside a (mirror e).
Proof. induction e as [r|b|e1 IH1 e2 IH2|e1 IH1 e2 IH2|f k e IH]; cbn [mirror outside]; try tauto. rewrite mirror_atoms. auto. Qed.
Lemma mirror_keeps D : keeps_values D mirror.
Proof.
  intros e He. split; [intros rho Hr; apply mirror_smooth; auto|]. split; [intros; apply mirror_value|].
  split; [intros a; apply mirror_atoms|intros a; apply mirror_outside].
Qed.
Definition all_env (_ : env) : Prop := True.
Definition push_T : expr := Times (Num (/ 2)) (Times (Var (Static "m")) (Times (q_ 0 1) (q_ 0 1))).
Definition push_U : expr := Times (Func cosf 0 (Var time)) (q_ 0 0).
Definition push_g (t : R) : env := fun a => match a with Static n => if (n =? "t")%string then t else 1 | Dyn _ k => cosf k t end.
Definition push_sigma (t : R) : env := fun a =>
  match a with
  | Static n => if (n =? "q_0")%string then cosf 0 t else if (n =? "v_0")%string then cosf 1 t else if (n =? "a_0")%string then cosf 2 t
                else if (n =? "t")%string then t else if (n =? "m")%string then 1 else 0
  | _ => 0
  end.
Definition push_eqs : Res (list expr) := get_lagr_eqs mirror mirror push_T push_U (C_int 1).
Definition push_orders : list (list atom) := [[Dyn "q_0" 2; Dyn "q_0" 0; Dyn "q_0" 1]]%string.
Lemma all_open : line_open all_env.
Proof. intros rho d _. exists (mkposreal 1 Rlt_0_1). intros. exact I. Qed.
Lemma push_smooth : smooth_on all_env push_T /\ smooth_on all_env push_U.
Proof. split; intros rho _; [cbn [smooth_at push_T q_]; tauto|]. split; [exact (cosf_smooth rho (Var time) I)|exact I]. Qed.
Lemma push_state : of_state 1 push_T /\ of_state 1 push_U.
Proof.
  split; intros a Ha; cbn in Ha.
  - destruct Ha as [<-|[<-|[<-|[]]]]; [left; exists "m"%string; split; auto; intros j Hj; discriminate| |]; right; exists 0%nat, 1%nat; repeat split; lia.
  - destruct Ha as [<-|[<-|[]]]; [left; exists "t"%string; split; auto; intros j Hj; discriminate|right; exists 0%nat, 0%nat; repeat split; lia].
Qed.
Lemma push_motion : timed_motion push_g.
Proof.
  split; [|split].
  - intros n k t. cbn [push_g]. apply cosf_derive.
  - intros n t t' Hn. cbn [push_g]. destruct (String.eqb_spec n "t"); congruence.
  - reflexivity.
Qed.
Lemma push_partial rho : partial (partial (fun r : env => eval r push_T - eval r push_U) (Dyn (q_name 0) 1)) (Dyn (q_name 0) 1) rho = rho (Static "m").
Proof.
  assert (S : forall rho, smooth_at rho (Minus push_T push_U)) by (intros r; apply smooth_Minus; apply push_smooth; exact I).
  replace (fun r : env => eval r push_T - eval r push_U) with (fun r : env => eval r (Minus push_T push_U)) by (apply functional_extensionality; intros r; apply eval_Minus).
  replace (partial (fun r : env => eval r (Minus push_T push_U)) (Dyn (q_name 0) 1)) with (fun r : env => eval r (diff (Dyn (q_name 0) 1) (Minus push_T push_U)))
    by (apply functional_extensionality; intros r; symmetry; now apply partial_diff).
  rewrite partial_diff by (apply smooth_diff, S). cbn -[cosf]. field.
Qed.
Lemma cosf2 (t : R) : cosf 2 t = - cosf 0 t.
Proof.
  unfold cosf. cbn [INR]. replace (t + (1 + 1) * (PI / 2)) with (t + PI) by field. rewrite neg_cos. do 2 f_equal. ring.
Qed.
Lemma push_hypotheses : exists eqs rhs, push_eqs = Ok eqs /\ lagr_to_RHS inv2 push_orders eqs = Ok rhs /\
  keeps_values all_env mirror /\ line_open all_env /\ smooth_on all_env push_T /\ smooth_on all_env push_U /\ of_state 1 push_T /\ of_state 1 push_U /\
  depends_on (atoms push_T ++ atoms push_U) all_env /\ inverts inv2 /\
  (forall i, (i < 1)%nat -> Forall (fun a => is_dyn a = true) (nth i push_orders []) /\
     (forall a, In a (atoms (nth i eqs (Num 0))) -> is_dyn a = true -> In a (nth i push_orders []))) /\
  timed_motion push_g /\ forall t : R, locally t (fun s => all_env (push_g s)) /\
  (forall a, In a (atoms push_T ++ atoms push_U) \/ (exists i k, (i < 1)%nat /\ (k <= 2)%nat /\ a = Dyn (q_name i) k) -> push_sigma t (symb_of a) = push_g t a) /\
  (exists B, inverse 1 (fun i j => partial (partial (fun r => eval r push_T - eval r push_U) (Dyn (q_name i) 1)) (Dyn (q_name j) 1) (push_g t)) B) /\
  push_g t (Dyn (q_name 0) 2) = eval (push_sigma t) (nth 0 rhs (Num 0)).
Proof.
  do 2 eexists. split; [reflexivity|]. split; [reflexivity|]. split; [apply mirror_keeps|]. split; [apply all_open|]. split; [apply push_smooth|]. split; [apply push_smooth|].
  split; [apply push_state|]. split; [apply push_state|]. split; [intros rho rho' _ _; exact I|]. split; [apply inv2_inverts|]. split.
  { intros [|i] Hi; [|lia]. split; [repeat constructor|]. intros a Ha Hd. cbn in Ha. repeat (destruct Ha as [<-|Ha]; [cbn; first [discriminate Hd|tauto]|]); destruct Ha. }
  split; [apply push_motion|]. intros t. split; [exists (mkposreal 1 Rlt_0_1); intros; exact I|]. split; [|split].
  - intros a [Ha|(i & k & Hi & Hk & ->)].
    + cbn in Ha. repeat (destruct Ha as [<-|Ha]; [reflexivity|]); destruct Ha.
    + destruct i; [|lia]. destruct k as [|[|[|k]]]; [reflexivity|reflexivity|reflexivity|lia].
  - exists (fun _ _ => 1). split; intros [|i] [|j] Hi Hj; try lia; cbn [rsum]; rewrite push_partial; cbn; unfold delta; cbn; ring.
  - cbn -[cosf cos recip]. rewrite recip0. rewrite cosf2.  generalize (cosf 0 t) (cosf 1 t). clear t. intros a b.
    match goal with |- _ = 0 + / ?x * _ => replace x with 1 by field end. field.
Qed.
