(** The casadi functions of the end values and slopes give what the numpy ones give. *)
From Coq Require Import String.
From Coquelicot Require Import Coquelicot.
From Verif Require Import Prelude PreludeFacts Poly PolyFacts PolyInterp PwInterpModel PwInterpSpec SymModel LagrModel LagrSpec LagrFacts
  DispatchModel DispatchProofs PsModel PsSpec PsPointsProofs PsBaryProofs PsNodesProofs PsProblemProofs PsMoreProofs PsFinalProofs CasModel CasProofs ExtCasModel.
Open Scope list_scope.
Open Scope R_scope.

Lemma append_inj_r p a b : (p ++ a)%string = (p ++ b)%string -> a = b.
Proof. induction p; cbn; intros H; [exact H|]. injection H as H. auto. Qed.
Lemma numbered_length pre N : length (numbered pre N) = N.
Proof. unfold numbered. now rewrite map_length, seq_length. Qed.
Lemma numbered_NoDup pre N : NoDup (numbered pre N).
Proof.
  unfold numbered. apply FinFun.Injective_map_NoDup; [|apply seq_NoDup].
  intros a b H. injection H as H. apply append_inj_r in H. now apply py_str_inj.
Qed.
Lemma numbered_nth pre N i d : (i < N)%nat -> nth i (numbered pre N) d = Static (pre ++ py_str i).
Proof.
  intros H. unfold numbered. rewrite (nth_indep _ d (Static (pre ++ py_str 0))) by (rewrite map_length, seq_length; lia).
  rewrite (map_nth (fun i => Static (pre ++ py_str i))). rewrite seq_nth by lia. reflexivity.
Qed.

(** Numbers for the symbols *)
Fixpoint look (vars : list atom) (v : vec) (a : atom) : R :=
  match vars, v with
  | b :: vars', r :: v' => if atom_eq_dec a b then r else look vars' v' a
  | _, _ => 0
  end.
Lemma look_map vars : forall v, NoDup vars -> length v = length vars -> map (look vars v) vars = v.
Proof.
  induction vars as [|b vars IH]; intros [|r v] ND L; try discriminate L; [reflexivity|].
  inversion ND; subst. cbn [map]. f_equal.
  - cbn. destruct (atom_eq_dec b b); congruence.
  - rewrite <- (IH v) at 2; auto. apply map_ext_in. intros a Ha. cbn. destruct (atom_eq_dec a b); [subst; contradiction|reflexivity].
Qed.
Lemma look_nth vars v i d : NoDup vars -> length v = length vars -> (i < length vars)%nat -> look vars v (nth i vars d) = vnth v i.
Proof.
  intros ND L H. rewrite <- (look_map vars v) at 2 by auto. unfold vnth.
  rewrite (nth_indep (map (look vars v) vars) 0 (look vars v d)) by (now rewrite map_length). now rewrite map_nth.
Qed.

Lemma casadi_of_value e vars : NoDup vars -> incl (atoms e) vars ->
  exists f, casadi_of e vars = Ok f /\ forall v, length v = length vars -> cas_call f [v] = Ok [eval (look vars v) e].
Proof.
  intros ND I. set (gs := [(S_x, vars)]).
  assert (Ev : g_vars gs = vars) by (unfold g_vars, gs; cbn [map concat snd]; apply app_nil_r).
  assert (Ec : g_cas gs = comps S_x (length vars)) by (unfold g_cas, gs; cbn [map concat fst snd]; apply app_nil_r).
  destruct (proj2 (sympy2casadi_iff gs e)) as [c E]; [now rewrite Ev|].
  exists (fun_of_x (length vars) c). split.
  - unfold casadi_of. rewrite <- Ec, <- Ev at 1. rewrite Ev in E. rewrite Ev, E. reflexivity.
  - intros v L. pose proof (function_value gs ["i0"%string] (look vars v) [e] [c]) as F.
    cbn [gs map map2 fst snd length] in F. rewrite look_map in F by auto. apply F; [|reflexivity|].
    + constructor; [intros []|constructor].
    + cbn [mapm]. fold gs. rewrite E. reflexivity.
Qed.

(** Values *)
Lemma fold_plus_eval rho (g : nat -> expr) n : forall e,
  eval rho (fold_left (fun s i => Plus s (g i)) (seq 0 n) e) = eval rho e + rsum n (fun i => eval rho (g i)).
Proof.
  induction n; intros e; [cbn; ring|]. rewrite seq_S, fold_left_app. cbn [fold_left eval rsum]. rewrite IHn. cbn. ring.
Qed.
Lemma fold_plus_atoms (g : nat -> expr) vars l : forall e, incl (atoms e) vars -> (forall i, In i l -> incl (atoms (g i)) vars) ->
  incl (atoms (fold_left (fun s i => Plus s (g i)) l e)) vars.
Proof.
  induction l; intros e He Hl; cbn [fold_left]; [exact He|]. apply IHl.
  - cbn [atoms]. apply incl_app; [exact He|]. apply Hl. now left.
  - intros i Hi. apply Hl. now right.
Qed.

Lemma run_extreme_value f vars : NoDup vars -> forall v, length v = length vars ->
  (do e <- run_extreme_sym f vars; do c <- casadi_of e vars; cas_call c [v]) = (do r <- run_extreme f v; Ok [r]).
Proof.
  intros ND v L. destruct f as [| |sup inf]; cbn [run_extreme_sym run_extreme].
  - destruct vars as [|a vars], v as [|r v]; try discriminate L; [reflexivity|]. cbn [first_item rbind].
    destruct (casadi_of_value (Var a) (a :: vars)) as (c & -> & H); auto; [intros x [<-|[]]; now left|].
    cbn [rbind]. rewrite H by auto. cbn. destruct (atom_eq_dec a a); congruence.
  - unfold last_item.
    destruct (rev vars) as [|a w] eqn:Ea.
    + assert (vars = []) by (rewrite <- (rev_involutive vars), Ea; reflexivity). subst. destruct v; [reflexivity|discriminate].
    + assert (Ev : vars = rev w ++ [a]) by (rewrite <- (rev_involutive vars), Ea; reflexivity).
      destruct (rev v) as [|r z] eqn:Er.
      * assert (v = []) by (rewrite <- (rev_involutive v), Er; reflexivity). subst. rewrite app_length in L. cbn in L. lia.
      * cbn [rbind]. destruct (casadi_of_value (Var a) vars) as (c & -> & H); auto.
        { intros x [<-|[]]. rewrite Ev. apply in_or_app. right. now left. }
        cbn [rbind]. rewrite H by auto. cbn [eval]. f_equal. f_equal.
        assert (Hn : nth (length w) vars a = a).
        { rewrite Ev, app_nth2 by (rewrite rev_length; lia). now rewrite rev_length, Nat.sub_diag. }
        assert (Lw : length vars = S (length w)) by (rewrite Ev, app_length, rev_length; cbn; lia).
        rewrite <- Hn at 1. rewrite look_nth by (auto; lia).
        assert (Ez : v = rev z ++ [r]) by (rewrite <- (rev_involutive v), Er; reflexivity).
        assert (Lz : length z = length w) by (rewrite Ez, app_length, rev_length in L; cbn in L; lia).
        rewrite Ez. unfold vnth. rewrite app_nth2 by (rewrite rev_length; lia). now rewrite rev_length, Lz, Nat.sub_diag.
  - rewrite L. destruct (length vars <? length sup)%nat eqn:E; [reflexivity|]. apply Nat.ltb_ge in E. cbn [rbind].
    destruct (casadi_of_value (Times (fold_left (fun s ii => Plus s (Times (Var (nth ii vars (Static ""))) (Num (vnth sup ii)))) (seq 0 (length sup)) (Num 0)) (Num (/ inf))) vars)
      as (c & -> & H); auto.
    { cbn [atoms]. rewrite app_nil_r.
      apply (fold_plus_atoms (fun ii => Times (Var (nth ii vars (Static ""))) (Num (vnth sup ii)))); [intros ? []|].
      intros i Hi. apply in_seq in Hi. cbn [atoms app]. intros x [<-|[]]. apply nth_In. lia. }
    cbn [rbind]. rewrite H by auto. cbn [eval].
    rewrite (fold_plus_eval _ (fun ii => Times (Var (nth ii vars (Static ""))) (Num (vnth sup ii)))). cbn [eval]. rewrite Rplus_0_l.
    f_equal. f_equal. unfold Rdiv. f_equal. apply rsum_ext. intros i Hi. now rewrite look_nth by (auto; lia).
Qed.

Section Roots.
Variable rr : list R -> list R.

Lemma extreme_cas_eq scheme N mode point order coefs : length coefs = N ->
  (do f <- get_bary_extreme_f_cas rr scheme N mode point order; cas_call f [coefs]) =
  (do f <- get_bary_extreme_f rr scheme N mode point order; do r <- run_extreme f coefs; Ok [r]).
Proof.
  intros L. unfold get_bary_extreme_f_cas. destruct (get_bary_extreme_f rr scheme N mode point order) as [f|x]; [|reflexivity].
  cbn [rbind]. rewrite <- (run_extreme_value f (numbered "c" N)); [|apply numbered_NoDup|now rewrite numbered_length].
  destruct (run_extreme_sym f (numbered "c" N)); reflexivity.
Qed.
Lemma end_p_cas_eq N scheme : end_p_fun_cas rr N scheme = get_bary_extreme_f_cas rr scheme N "x" "end" 2.
Proof. reflexivity. Qed.
Lemma start_p_cas_eq N scheme : start_p_fun_cas rr N scheme = get_bary_extreme_f_cas rr scheme N "x" "start" 2.
Proof. reflexivity. Qed.

Lemma extreme_cas_ok scheme N mode point order v f coefs r : length coefs = N ->
  get_bary_extreme_f rr scheme N mode point order = Ok f -> run_extreme f coefs = Ok r ->
  get_bary_extreme_f_cas rr scheme N mode point order = Ok v -> cas_call v [coefs] = Ok [r].
Proof.
  intros L E1 E2 E3. pose proof (extreme_cas_eq scheme N mode point order coefs L) as H.
  rewrite E1, E3 in H. cbn [rbind] in H. rewrite E2 in H. exact H.
Qed.
Lemma extreme_cas_some scheme N mode point order f coefs r : length coefs = N ->
  get_bary_extreme_f rr scheme N mode point order = Ok f -> run_extreme f coefs = Ok r ->
  exists v, get_bary_extreme_f_cas rr scheme N mode point order = Ok v.
Proof.
  intros L E1 E2. pose proof (extreme_cas_eq scheme N mode point order coefs L) as H.
  rewrite E1 in H. cbn [rbind] in H. rewrite E2 in H. cbn [rbind] in H.
  destruct (get_bary_extreme_f_cas rr scheme N mode point order); [eauto|discriminate H].
Qed.
End Roots.

(** ** Controls and states *)
Lemma extreme_cas_u rr : real_roots_ok rr -> forall s N order point p, In s all_schemes -> enough_points s N ->
  In (point, p) [("start"%string, -1); ("end"%string, 1)] ->
  exists ts f, coll_points rr N s order = Ok ts /\ get_bary_extreme_f_cas rr s N "u" point order = Ok f /\
    forall coefs c, length coefs = length ts -> interpolates ts coefs c -> cas_call f [coefs] = Ok [peval c p].
Proof.
  intros R0 s N order point p Is En Ip. destruct (extreme_u rr R0 s N order point p Is En Ip) as (ts & f & E1 & E2 & H).
  destruct (coll_points_ok rr R0 s N order Is En) as (ts' & E1' & P). rewrite E1 in E1'. injection E1' as <-. destruct P as (Ln & Inc & _).
  destruct (extreme_cas_some rr s N "u" point order f ts (peval (lagrangePolynomial ts ts) p)) as [v Ev]; auto.
  { apply H; auto. apply lagrangePolynomial_interp; auto. now apply increasing_NoDup. }
  exists ts, v. split; [exact E1|]. split; [exact Ev|]. intros coefs c L I.
  apply (extreme_cas_ok rr s N "u" point order v f coefs); auto. lia.
Qed.

Lemma extreme_cas_x rr : real_roots_ok rr -> forall s N n order point p, In s all_schemes -> enough_points s N -> n_col_to_n_nodes s N = Ok n ->
  In (point, p) [("start"%string, -1); ("end"%string, 1)] -> (order <= 2)%nat ->
  exists ts f, node_points rr n s = Ok ts /\ get_bary_extreme_f_cas rr s n "x" point order = Ok f /\
    forall coefs c, length coefs = length ts -> interpolates ts coefs c -> cas_call f [coefs] = Ok [peval c p].
Proof.
  intros R0 s N n order point p Is En Ec Ip Ho. destruct (extreme_x rr R0 s N n order point p Is En Ec Ip Ho) as (ts & f & E1 & E2 & H).
  destruct (nodes_ok rr R0 s N n Is En Ec) as (ts' & E1' & P). rewrite E1 in E1'. injection E1' as <-. destruct P as (Ln & Inc & _).
  destruct (extreme_cas_some rr s n "x" point order f ts (peval (lagrangePolynomial ts ts) p)) as [v Ev]; auto.
  { apply H; auto. apply lagrangePolynomial_interp; auto. now apply increasing_NoDup. }
  exists ts, v. split; [exact E1|]. split; [exact Ev|]. intros coefs c L I.
  apply (extreme_cas_ok rr s n "x" point order v f coefs); auto. lia.
Qed.
Lemma point_fun_cas rr : real_roots_ok rr -> forall s N n, In s all_schemes -> enough_points s N -> n_col_to_n_nodes s N = Ok n ->
  exists ts f g, node_points rr n s = Ok ts /\ start_p_fun_cas rr n s = Ok f /\ end_p_fun_cas rr n s = Ok g /\
    forall coefs c, length coefs = length ts -> interpolates ts coefs c -> cas_call f [coefs] = Ok [peval c (-1)] /\ cas_call g [coefs] = Ok [peval c 1].
Proof.
  intros R0 s N n Is En Ec.
  destruct (extreme_cas_x rr R0 s N n 2 "start" (-1) Is En Ec) as (ts & f & E1 & E2 & H); [now left|lia|].
  destruct (extreme_cas_x rr R0 s N n 2 "end" 1 Is En Ec) as (ts' & g & E1' & E2' & H'); [right; now left|lia|].
  rewrite E1 in E1'. injection E1' as <-. exists ts, f, g. repeat split; auto.
Qed.

(** ** Slopes *)
Definition put_env (s : atom) (r : R) (rho : env) : env := fun a => if atom_eq_dec a s then r else rho a.
Lemma put_number_eval s r rho e : eval rho (put_number s r e) = eval (put_env s r rho) e.
Proof.
  induction e; cbn [put_number eval]; try congruence.
  unfold put_env. destruct (atom_eq_dec a s); reflexivity.
Qed.
Lemma put_number_atoms s r e a : In a (atoms (put_number s r e)) -> In a (atoms e) /\ a <> s.
Proof.
  induction e; cbn [put_number atoms]; intros H; try (now destruct H).
  - destruct (atom_eq_dec a0 s); cbn in H; [destruct H|]. destruct H as [<-|[]]. split; [now left|assumption].
  - apply in_app_or in H. destruct H as [H|H]; [apply IHe1 in H|apply IHe2 in H]; split; try tauto; apply in_or_app; tauto.
  - apply in_app_or in H. destruct H as [H|H]; [apply IHe1 in H|apply IHe2 in H]; split; try tauto; apply in_or_app; tauto.
  - now apply IHe.
Qed.
Lemma diff_atoms s e : incl (atoms (diff s e)) (atoms e).
Proof.
  induction e; cbn [diff atoms]; intros x H; auto.
  - destruct (atom_eq_dec a s); destruct H.
  - apply in_app_or in H. apply in_or_app. destruct H as [H|H]; [left; now apply IHe1|right; now apply IHe2].
  - rewrite !in_app_iff in H. apply in_or_app. destruct H as [[H|H]|[H|H]]; auto.
  - apply in_app_or in H. destruct H as [H|H]; auto.
Qed.

Lemma fold_times_eval rho (g : R -> expr) (b : R -> bool) l : forall e,
  eval rho (fold_left (fun acc m => if b m then acc else Times acc (g m)) l e) =
  eval rho e * fold_right (fun m acc => if b m then acc else eval rho (g m) * acc) 1 l.
Proof.
  induction l; intros e; cbn [fold_left fold_right]; [ring|]. rewrite IHl. destruct (b a); [ring|]. cbn [eval]. ring.
Qed.
Lemma lag_pol_sym_eval rho labels j : eval rho (lag_pol_sym labels j) = peval (lag_pol labels j) (rho x_sym).
Proof.
  unfold lag_pol_sym, lag_pol. set (cur := vnth labels j).
  assert (G : forall l e, eval rho (fold_left (fun acc m => if Req_EM_T m cur then acc else Times acc (Times (Plus (Var x_sym) (Num (- m))) (Num (/ (cur - m))))) l e) =
    eval rho e * peval (fold_right (fun m acc => if Req_EM_T m cur then acc else Poly.pmul [- m / (cur - m); 1 / (cur - m)] acc) [1] l) (rho x_sym)).
  { induction l; intros e; cbn [fold_left fold_right].
    - cbn [peval]. ring.
    - rewrite IHl. destruct (Req_EM_T a cur) as [|Ne]; [reflexivity|]. rewrite peval_pmul. cbn [eval peval]. field. lra. }
  rewrite G. cbn [eval]. ring.
Qed.
Lemma lag_pol_sym_atoms labels j : incl (atoms (lag_pol_sym labels j)) [x_sym].
Proof.
  unfold lag_pol_sym. set (cur := vnth labels j).
  assert (G : forall l e, incl (atoms e) [x_sym] -> incl (atoms (fold_left (fun acc m => if Req_EM_T m cur then acc else Times acc (Times (Plus (Var x_sym) (Num (- m))) (Num (/ (cur - m))))) l e)) [x_sym]).
  { induction l; intros e He; cbn [fold_left]; [exact He|]. apply IHl. destruct (Req_EM_T a cur); [exact He|].
    cbn [atoms app]. apply incl_app; [exact He|apply incl_refl]. }
  apply G. intros ? [].
Qed.
Lemma lag_sym_eval rho xs vars v e : NoDup vars -> length v = length vars -> (forall i, (i < length vars)%nat -> rho (nth i vars (Static "")) = vnth v i) ->
  lagrangePolynomial_sym xs vars = Ok e -> eval rho e = peval (lagrangePolynomial xs v) (rho x_sym).
Proof.
  intros ND L Hr E. unfold lagrangePolynomial_sym in E. destruct (_ <? _)%nat; [discriminate|]. injection E as <-.
  rewrite (fold_plus_eval rho (fun j => Times (Var (nth j vars (Static ""))) (lag_pol_sym xs j))). cbn [eval]. rewrite Rplus_0_l.
  unfold lagrangePolynomial. rewrite peval_fold_padd, map_map. change (fold_right Rplus 0) with vsum. rewrite vsum_map_seq, L.
  apply rsum_ext. intros i Hi. rewrite peval_pscale, lag_pol_sym_eval, Hr by auto. reflexivity.
Qed.
Lemma lag_sym_atoms xs vars e : lagrangePolynomial_sym xs vars = Ok e -> incl (atoms e) (x_sym :: vars).
Proof.
  intros E. unfold lagrangePolynomial_sym in E. destruct (_ <? _)%nat; [discriminate|]. injection E as <-.
  apply (fold_plus_atoms (fun j => Times (Var (nth j vars (Static ""))) (lag_pol_sym xs j))); [intros ? []|].
  intros i Hi. apply in_seq in Hi. cbn [atoms]. apply incl_app.
  - intros x [<-|[]]. right. apply nth_In. lia.
  - intros x Hx. apply lag_pol_sym_atoms in Hx. destruct Hx as [<-|[]]. now left.
Qed.
Fixpoint no_func (e : expr) : Prop :=
  match e with Num _ | Var _ => True | Plus a b | Times a b => no_func a /\ no_func b | Func _ _ _ => False end.
Lemma no_func_smooth rho e : no_func e -> smooth_at rho e.
Proof. induction e; cbn; tauto. Qed.
Lemma fold_no_func {A} (g : A -> expr) l : forall e, no_func e -> (forall a, In a l -> no_func (g a)) -> no_func (fold_left (fun s i => Plus s (g i)) l e).
Proof. induction l; intros e He Hg; cbn [fold_left]; [exact He|]. apply IHl; [split; [exact He|apply Hg; now left]|intros; apply Hg; now right]. Qed.
Lemma lag_sym_no_func xs vars e : lagrangePolynomial_sym xs vars = Ok e -> no_func e.
Proof.
  intros E. unfold lagrangePolynomial_sym in E. destruct (_ <? _)%nat; [discriminate|]. injection E as <-.
  apply (fold_no_func (fun j => Times (Var (nth j vars (Static ""))) (lag_pol_sym xs j))); [exact I|].
  intros j _. split; [exact I|]. unfold lag_pol_sym. set (cur := vnth xs j). 
  assert (G : forall l e, no_func e -> no_func (fold_left (fun acc m => if Req_EM_T m cur then acc else Times acc (Times (Plus (Var x_sym) (Num (- m))) (Num (/ (cur - m))))) l e)).
  { induction l; intros e He; cbn [fold_left]; [exact He|]. apply IHl. destruct (Req_EM_T a cur); [exact He|]. cbn. tauto. }
  apply G. exact I.
Qed.

Lemma x_not_numbered pre N : (forall i, (pre ++ py_str i)%string <> "x"%string) -> ~ In x_sym (numbered pre N).
Proof. intros H I. unfold numbered in I. apply in_map_iff in I. destruct I as (i & E & _). injection E as E. now apply (H i). Qed.

Lemma slope_cas xs N r : (length xs = N) ->
  exists e f, lagrangePolynomial_sym xs (numbered "c_" N) = Ok e /\
    casadi_of (put_number x_sym r (diff x_sym e)) (numbered "c_" N) = Ok f /\
    forall v, length v = N -> cas_call f [v] = Ok [peval (Poly.pderiv (lagrangePolynomial xs v)) r].
Proof.
  intros Lx. set (vars := numbered "c_" N).
  assert (ND : NoDup vars) by apply numbered_NoDup. assert (Lv : length vars = N) by apply numbered_length.
  assert (Nx : ~ In x_sym vars) by (apply x_not_numbered; discriminate).
  destruct (lagrangePolynomial_sym xs vars) as [e|] eqn:E.
  2:{ exfalso. unfold lagrangePolynomial_sym in E. destruct (Nat.ltb_spec (length xs) (length vars)); [lia|discriminate]. }
  destruct (casadi_of_value (put_number x_sym r (diff x_sym e)) vars ND) as (f & Ef & H).
  { intros a Ha. apply put_number_atoms in Ha. destruct Ha as [Ha Hn]. apply diff_atoms in Ha. apply (lag_sym_atoms _ _ _ E) in Ha.
    destruct Ha as [Ha|Ha]; [congruence|exact Ha]. }
  exists e, f. split; [reflexivity|]. split; [exact Ef|]. intros v L. rewrite H by lia. f_equal. f_equal.
  rewrite put_number_eval, eval_diff. set (rho := look vars v).
  assert (D1 : is_derive (fun t => eval (put_env x_sym t rho) e) r (tangent (put_env x_sym r rho) (unit_env x_sym) e)).
  { apply tangent_derive; [apply no_func_smooth, (lag_sym_no_func _ _ _ E)|]. intros a _. unfold put_env, unit_env.
    destruct (atom_eq_dec a x_sym); [apply @is_derive_id|apply @is_derive_const]. }
  assert (D2 : is_derive (fun t => eval (put_env x_sym t rho) e) r (peval (Poly.pderiv (lagrangePolynomial xs v)) r)).
  { apply is_derive_ext with (f := peval (lagrangePolynomial xs v)); [|apply is_derive_peval].
    intros t. symmetry. replace t with (put_env x_sym t rho x_sym) at 2.
    2:{ unfold put_env. match goal with |- context [atom_eq_dec ?a ?b] => destruct (atom_eq_dec a b) end; congruence. }
    apply (lag_sym_eval (put_env x_sym t rho) xs vars v e ND); [lia| |exact E].
    intros i Hi. unfold put_env. match goal with |- context [atom_eq_dec ?a ?b] => destruct (atom_eq_dec a b) as [Ex|_] end.
    - exfalso. apply Nx. rewrite <- Ex. now apply nth_In.
    - apply look_nth; auto. lia. }
  apply is_derive_unique in D1. apply is_derive_unique in D2. congruence.
Qed.
Lemma slope_fun_cas rr : real_roots_ok rr -> forall s N n nd, In s all_schemes -> enough_points s N -> n_col_to_n_nodes s N = Ok n ->
  node_points rr n s = Ok nd ->
  exists f g, diff_end_p_fun_cas rr n s = Ok f /\ diff_start_p_fun_cas rr n s = Ok g /\
    forall coefs c, length coefs = n -> interpolates nd coefs c ->
    cas_call f [coefs] = Ok [Derive (peval c) 1] /\ cas_call g [coefs] = Ok [Derive (peval c) 0].
Proof.
  intros R0 s N n nd Is En Ec E. destruct (nodes_ok rr R0 s N n Is En Ec) as (ts' & E1' & P). rewrite E in E1'. injection E1' as <-. destruct P as (Ln & Inc & _).
  destruct (slope_cas nd n 1 Ln) as (e & f & Ee & Ef & Hf). destruct (slope_cas nd n 0 Ln) as (e' & g & Ee' & Eg & Hg).
  rewrite Ee in Ee'. injection Ee' as <-.
  exists f, g. unfold diff_end_p_fun_cas, diff_start_p_fun_cas. rewrite E. cbn [rbind]. rewrite Ee. cbn [rbind].
  split; [exact Ef|]. split; [exact Eg|]. intros coefs c L I.
  assert (A1 := diff_end_ok rr n s nd coefs c E ltac:(now apply increasing_NoDup) ltac:(lia) I).
  assert (A2 := diff_start_at_0 rr n s nd coefs c E ltac:(now apply increasing_NoDup) ltac:(lia) I).
  unfold diff_end_p_fun, diff_start_p_fun in A1, A2. rewrite E in A1, A2. cbn [rbind] in A1, A2.
  rewrite Hf, Hg by auto. injection A1 as ->. injection A2 as ->. auto.
Qed.
Lemma slope_start_wrong rr : exists f, node_points rr 3 "CGL" = Ok [-1; 0; 1] /\ interpolates [-1; 0; 1] [1; 0; 1] [0; 0; 1] /\
  diff_start_p_fun_cas rr 3 "CGL" = Ok f /\ cas_call f [[1; 0; 1]] = Ok [0] /\ Derive (peval [0; 0; 1]) (-1) = -2.
Proof.
  destruct (diff_start_wrong rr) as (_ & _ & E & _).
  assert (I : interpolates [-1; 0; 1] [1; 0; 1] [0; 0; 1]).
  { split; [simpl; lia|]. intros [|[|[|i]]] Hi; unfold vnth; simpl; [lra|lra|lra|simpl in Hi; lia]. }
  assert (ND : NoDup [-1; 0; 1]).
  { repeat constructor; simpl; intuition; lra. }
  destruct (slope_cas [-1; 0; 1] 3 0 eq_refl) as (e & f & Ee & Ef & Hf). exists f. split; [exact E|]. split; [exact I|].
  unfold diff_start_p_fun_cas. rewrite E. cbn [rbind]. rewrite Ee. cbn [rbind]. split; [exact Ef|]. split.
  - rewrite Hf by auto. pose proof (diff_start_at_0 rr 3 "CGL" [-1; 0; 1] [1; 0; 1] [0; 0; 1] E ND eq_refl I) as A.
    unfold diff_start_p_fun in A. rewrite E in A. cbn [rbind] in A. apply (f_equal (fun x => match x with Ok r => r | Err _ => 0 end)) in A. cbv beta iota in A. rewrite A, Derive_peval. unfold Poly.pderiv. simpl. f_equal. f_equal. ring.
  - rewrite Derive_peval. unfold Poly.pderiv. simpl. ring.
Qed.
