(** lagr_to_RHS, unconstrained systems, inverse and implicit dynamics. *)
From Coq Require Import String FunctionalExtensionality.
From Coquelicot Require Import Coquelicot.
From Verif Require PwInterpProofs.
From Verif Require Import Prelude PreludeFacts Poly PolyFacts PwInterpModel SymModel SymSpec SymProofs LagrModel LagrSpec LagrFacts LagrProofs LagrAlgebra.
Open Scope R_scope.
Open Scope list_scope.

(** ** Coefficients *)
Definition pv (rho : env) (p : list expr) (x : R) : R := peval (map (eval rho) p) x.
Lemma pv_padd rho p q x : pv rho (LagrModel.padd p q) x = pv rho p x + pv rho q x.
Proof.
  revert q; induction p as [|e p IH]; intros [|f q]; unfold pv in *; cbn [LagrModel.padd map peval eval]; try ring.
  rewrite IH. ring.
Qed.
Lemma pv_map rho e q x : pv rho (map (Times e) q) x = eval rho e * pv rho q x.
Proof. unfold pv. induction q as [|f q IH]; cbn [map peval eval]; [ring | rewrite IH; ring]. Qed.
Lemma pv_pmul rho p q x : pv rho (LagrModel.pmul p q) x = pv rho p x * pv rho q x.
Proof.
  induction p as [|e p IH]; cbn [LagrModel.pmul].
  - unfold pv. cbn. ring.
  - rewrite pv_padd, pv_map. unfold pv in *. cbn [map peval eval]. rewrite IH. ring.
Qed.
Lemma pv_poly_in rho a e : pv rho (poly_in a e) (rho a) = eval rho e.
Proof.
  induction e as [r | b | e1 IH1 e2 IH2 | e1 IH1 e2 IH2 | f k e IH]; cbn [poly_in eval].
  - unfold pv. cbn. ring.
  - destruct (atom_eq_dec b a); [subst|]; unfold pv; cbn; ring.
  - rewrite pv_padd, IH1, IH2. ring.
  - rewrite pv_pmul, IH1, IH2. ring.
  - unfold pv. cbn. ring.
Qed.
(** The coefficients do not contain the symbol. *)
Definition clear_of (a : atom) (p : list expr) : Prop := Forall (fun e => ~ In a (atoms e)) p.
Lemma clear_padd a p q : clear_of a p -> clear_of a q -> clear_of a (LagrModel.padd p q).
Proof.
  revert q; induction p as [|e p IH]; intros [|f q] H1 H2; cbn [LagrModel.padd]; auto.
  inversion H1; inversion H2; subst. constructor; [|apply IH; auto].
  cbn [atoms]. rewrite in_app_iff. tauto.
Qed.
Lemma clear_pmul a p q : clear_of a p -> clear_of a q -> clear_of a (LagrModel.pmul p q).
Proof.
  induction p as [|e p IH]; intros H1 H2; cbn [LagrModel.pmul]; [constructor|].
  inversion H1; subst. apply clear_padd.
  - apply Forall_map. eapply Forall_impl; [|exact H2]. intros f Hf. cbv beta in *. cbn [atoms]. rewrite in_app_iff. tauto.
  - constructor; [cbn; auto | apply IH; auto].
Qed.
Lemma clear_poly_in a e : outside a e -> clear_of a (poly_in a e).
Proof.
  induction e as [r | b | e1 IH1 e2 IH2 | e1 IH1 e2 IH2 | f k e IH]; cbn [poly_in outside]; intros H.
  - constructor; [cbn; auto | constructor].
  - destruct (atom_eq_dec b a).
    + repeat (constructor; [cbn; auto|]). constructor.
    + constructor; [cbn; intros [E|[]]; auto | constructor].
  - apply clear_padd; [apply IH1 | apply IH2]; tauto.
  - apply clear_pmul; [apply IH1 | apply IH2]; tauto.
  - constructor; [cbn; auto | constructor].
Qed.
Lemma eval_upd rho a x e : ~ In a (atoms e) -> eval (upd rho a x) e = eval rho e.
Proof.
  intros H. apply eval_ext. intros b Hb. unfold upd. destruct (atom_eq_dec b a); [subst; contradiction | reflexivity].
Qed.
Lemma pv_upd rho a y p x : clear_of a p -> pv (upd rho a y) p x = pv rho p x.
Proof.
  unfold pv. induction 1 as [|e p He Hp IH]; cbn [map peval]; [reflexivity|]. rewrite IH, eval_upd by auto. reflexivity.
Qed.
Lemma coeff_value rho a e c1 c0 : outside a e -> (forall x, eval (upd rho a x) e = c1 * x + c0) -> eval rho (coeff a e) = c1.
Proof.
  intros Ho H.
  assert (P : forall x, peval (map (eval rho) (poly_in a e)) x = c1 * x + c0).
  { intros x. rewrite <- H. rewrite <- (pv_poly_in (upd rho a x) a e).
    replace (upd rho a x a) with x by (unfold upd; destruct (atom_eq_dec a a); congruence).
    rewrite pv_upd by (apply clear_poly_in; auto). reflexivity. }
  pose proof (is_derive_peval (map (eval rho) (poly_in a e)) 0) as E. apply is_derive_unique in E.
  rewrite (Derive_ext _ (fun x => c1 * x + c0)) in E by auto.
  assert (E' : Derive (fun x => c1 * x + c0) 0 = c1).
  { apply is_derive_unique. auto_derive; auto. ring. }
  rewrite E', peval_0, nth_pderiv in E. rewrite E. unfold coeff. cbn [INR].
  rewrite Rmult_1_l. change 0 with (eval rho (Num 0)). rewrite map_nth. reflexivity.
Qed.

(** ** lagr_to_RHS *)
Lemma a_symb_inj i j : a_symb i = a_symb j -> i = j.
Proof. unfold a_symb. intros H. inversion H. apply str_nat_inj; auto. Qed.
Lemma with_acc_in n rho y j : (j < n)%nat -> with_acc n rho y (a_symb j) = y j.
Proof.
  intros Hj. unfold with_acc.
  destruct (List.find _ (seq 0 n)) as [i|] eqn:E.
  - apply find_some in E. destruct E as [_ E]. destruct (atom_eq_dec (a_symb i) (a_symb j)) as [H|]; [|discriminate].
    apply a_symb_inj in H. now subst.
  - exfalso. eapply find_none in E; [|apply in_seq; split; [apply Nat.le_0_l | exact Hj]]. cbv beta in E.
    destruct (atom_eq_dec (a_symb j) (a_symb j)); congruence.
Qed.
Lemma with_acc_out n rho y b : (forall j, (j < n)%nat -> b <> a_symb j) -> with_acc n rho y b = rho b.
Proof.
  intros H. unfold with_acc. destruct (List.find _ (seq 0 n)) as [i|] eqn:E; [|reflexivity].
  apply find_some in E. destruct E as [Hi E]. destruct (atom_eq_dec (a_symb i) b); [|discriminate].
  apply in_seq in Hi. exfalso. apply (H i); [lia | auto].
Qed.
Lemma u_not_a i j : u_symb i <> a_symb j.
Proof. unfold u_symb, a_symb. intros H. inversion H. Qed.
Section Solve.
Variables (D : env -> Prop) (n : nat) (es : list expr) (A : env -> nat -> nat -> R) (c : env -> nat -> R).
Hypothesis Hl : linear_in_acc D n es A c.
Hypothesis Ho : forall i j, (i < n)%nat -> (j < n)%nat -> outside (a_symb j) (nth i es (Num 0)).
Hypothesis Hlen : length es = n.
Lemma upd_with_acc rho j x : (j < n)%nat -> upd rho (a_symb j) x = with_acc n rho (fun k => if (k =? j)%nat then x else rho (a_symb k)).
Proof.
  intros Hj. apply functional_extensionality. intros b. unfold upd. destruct (atom_eq_dec b (a_symb j)) as [->|Hb].
  - rewrite with_acc_in by auto. now rewrite Nat.eqb_refl.
  - destruct (List.find (fun k => if atom_eq_dec (a_symb k) b then true else false) (seq 0 n)) as [i|] eqn:E.
    + pose proof (find_some _ _ E) as [Hi Hi']. destruct (atom_eq_dec (a_symb i) b) as [Hi''|]; [|discriminate]. subst b.
      apply in_seq in Hi. rewrite with_acc_in by lia. destruct (Nat.eqb_spec i j); [subst; congruence | reflexivity].
    + unfold with_acc. rewrite E. reflexivity.
Qed.
Lemma coeff_mat_value rho i j : D rho -> (i < n)%nat -> (j < n)%nat -> eval rho (coeff_mat es i j) = A rho i j.
Proof.
  intros HD Hi Hj. unfold coeff_mat.
  apply (coeff_value rho (a_symb j) _ _ (rsum n (fun k => if (k =? j)%nat then 0 else A rho i k * rho (a_symb k)) + c rho i)); auto.
  intros x. rewrite upd_with_acc by auto. rewrite (proj1 (proj2 Hl)) by (auto; now apply (proj1 Hl)).
  set (y := fun k => if (k =? j)%nat then x else rho (a_symb k)). destruct (proj2 (proj2 Hl) rho y i HD Hi) as [Ec Ea]. rewrite Ec, <- Rplus_assoc. f_equal.
  rewrite (rsum_ext n _ (fun k => (if (k =? j)%nat then A rho i j * x else 0) + (if (k =? j)%nat then 0 else A rho i k * rho (a_symb k)))).
  - rewrite rsum_plus, rsum_pick by auto. ring.
  - intros k Hk. rewrite Ea, with_acc_in by auto. unfold y. destruct (Nat.eqb_spec k j); [subst|]; ring.
Qed.
Lemma fold_minus rho (f : nat -> expr) k init :
  eval rho (fold_left (fun r j => Minus r (f j)) (seq 0 k) init) = eval rho init - rsum k (fun j => eval rho (f j)).
Proof.
  induction k; [cbn; ring|]. rewrite seq_S, fold_left_app. cbn [fold_left rsum]. rewrite eval_Minus, IHk. cbn [Nat.add]. ring.
Qed.
Lemma c_mat_value rho i : D rho -> (i < n)%nat -> eval rho (c_mat es i) = c rho i.
Proof.
  intros HD Hi. unfold c_mat. rewrite fold_minus, Hlen, (proj1 (proj2 Hl)) by auto.
  rewrite (rsum_ext n (fun j => eval rho (Times (Var (a_symb j)) (coeff_mat es i j))) (fun j => A rho i j * rho (a_symb j))).
  - ring.
  - intros j Hj. cbn [eval]. rewrite coeff_mat_value by auto. ring.
Qed.
Lemma rhs_solves N rho y : D rho -> inverse n (A rho) (ev rho N) ->
  (forall i, (i < n)%nat -> eval (with_acc n rho y) (nth i es (Num 0)) = rho (u_symb i)) <->
  (forall j, (j < n)%nat -> y j = eval rho (emulv n N (fun k => Minus (Var (u_symb k)) (c_mat es k)) j)).
Proof.
  intros HD HN.
  assert (E1 : forall i, (i < n)%nat -> eval (with_acc n rho y) (nth i es (Num 0)) = mv n (A rho) y i + c rho i).
  { intros i Hi. rewrite (proj1 (proj2 Hl)) by (auto; now apply (proj1 Hl)). destruct (proj2 (proj2 Hl) rho y i HD Hi) as [Ec Ea]. rewrite Ec. f_equal.
    apply rsum_ext. intros j Hj. rewrite Ea, with_acc_in by auto. reflexivity. }
  assert (E2 : forall j, eval rho (emulv n N (fun k => Minus (Var (u_symb k)) (c_mat es k)) j) = mv n (ev rho N) (fun k => rho (u_symb k) - c rho k) j).
  { intros j. rewrite eval_emulv. apply rsum_ext. intros k Hk. rewrite eval_Minus, c_mat_value by auto. reflexivity. }
  split; intros H.
  - intros j Hj. rewrite E2. rewrite (mv_ext n _ (ev rho N) _ (mv n (A rho) y) j); auto.
    + symmetry. apply mv_inv_l; auto.
    + intros k Hk. specialize (H k Hk). rewrite E1 in H by auto. lra.
  - intros i Hi. rewrite E1 by auto. rewrite (mv_ext n _ (A rho) y (mv n (ev rho N) (fun k => rho (u_symb k) - c rho k)) i); auto.
    + rewrite mv_inv_r by auto. ring.
    + intros j Hj. rewrite H by auto. apply E2.
Qed.
End Solve.
Lemma lagr_to_RHS_solves inv orders eqs rhs D A c :
  inverts inv ->
  (forall i, (i < length eqs)%nat -> Forall (fun a => is_dyn a = true) (nth i orders []) /\
     forall a, In a (atoms (nth i eqs (Num 0))) -> is_dyn a = true -> In a (nth i orders [])) ->
  let es := map (rename symb_of) eqs in let n := length eqs in
  linear_in_acc D n es A c ->
  (forall i j, (i < n)%nat -> (j < n)%nat -> outside (a_symb j) (nth i es (Num 0))) ->
  lagr_to_RHS inv orders eqs = Ok rhs ->
  length rhs = n /\
  forall rho, D rho -> (exists B, inverse n (A rho) B) -> forall y,
    ((forall i, (i < n)%nat -> eval (fun b => with_acc n rho y (symb_of b)) (nth i eqs (Num 0)) = rho (u_symb i)) <->
     (forall j, (j < n)%nat -> y j = eval rho (nth j rhs (Num 0)))).
Proof.
  intros Hinv Hord es n Hl Ho E. unfold lagr_to_RHS in E. fold n in E.
  destruct (mapm (fun i => diff_to_symb_expr (nth i orders []) (nth i eqs (Num 0))) (seq 0 n)) as [es'|] eqn:E1; cbn [rbind] in E; [|discriminate].
  assert (es' = es).
  { destruct (PwInterpProofs.mapm_ok _ _ _ E1) as [L H]. rewrite seq_length in L, H.
    apply (list_ext (Num 0)).
    - unfold es. rewrite L, map_length. reflexivity.
    - intros i Hi. rewrite L in Hi. specialize (H i 0%nat (Num 0) Hi). rewrite seq_nth in H by auto. cbn [Nat.add] in H.
      destruct (Hord i Hi) as [Hd Hc]. apply (diff_to_symb_expr_value _ _ _ Hd Hc) in H. rewrite H.
      unfold es. change (Num 0) with (rename symb_of (Num 0)) at 2. rewrite map_nth. reflexivity. }
  subst es'. destruct (inv n (coeff_mat es)) as [N|] eqn:E2; cbn [rbind] in E; [|discriminate].
  injection E as <-. rewrite map_length, seq_length. split; [reflexivity|].
  intros rho HD [B HB] y.
  assert (Hlen : length es = n) by (unfold es; apply map_length).
  assert (HN : inverse n (A rho) (ev rho N)).
  { assert (X : forall i j, (i < n)%nat -> (j < n)%nat -> ev rho (coeff_mat es) i j = A rho i j).
    { intros i j Hi Hj. apply (coeff_mat_value D n es A c); auto. }
    assert (Y : inverse n (ev rho (coeff_mat es)) B).
    { destruct HB as [H1 H2]. split; intros i j Hi Hj.
      - rewrite <- (H1 i j) by auto. apply rsum_ext. intros l Hl'. rewrite X; auto.
      - rewrite <- (H2 i j) by auto. apply rsum_ext. intros l Hl'. rewrite X; auto. }
    destruct (proj1 (Hinv n _ N E2 rho (ex_intro _ B Y))) as [H1 H2]. split; intros i j Hi Hj.
    - rewrite <- (H1 i j) by auto. apply rsum_ext. intros l Hl'. rewrite X; auto.
    - rewrite <- (H2 i j) by auto. apply rsum_ext. intros l Hl'. rewrite X; auto. }
  pose proof (rhs_solves D n es A c Hl Ho Hlen N rho y HD HN) as S1.
  assert (T : forall i, (i < n)%nat -> eval (fun b => with_acc n rho y (symb_of b)) (nth i eqs (Num 0)) = eval (with_acc n rho y) (nth i es (Num 0))).
  { intros i Hi. unfold es. change (Num 0) with (rename symb_of (Num 0)) at 2. rewrite map_nth, eval_rename. reflexivity. }
  assert (U : forall j, (j < n)%nat -> nth j (map (emulv n N (fun j => Minus (Var (u_symb j)) (c_mat es j))) (seq 0 n)) (Num 0) =
                            emulv n N (fun j => Minus (Var (u_symb j)) (c_mat es j)) j).
  { intros j Hj. rewrite (nth_indep _ _ (emulv n N (fun j => Minus (Var (u_symb j)) (c_mat es j)) 0%nat)) by (rewrite map_length, seq_length; auto).
    rewrite map_nth, seq_nth by auto. reflexivity. }
  split; intros H.
  - intros j Hj. rewrite U by auto. revert j Hj. apply S1. intros i Hi. rewrite <- T by auto. auto.
  - intros i Hi. rewrite T by auto. revert i Hi. apply S1. intros j Hj. rewrite <- U by auto. auto.
Qed.
