(** Unconstrained, implicit and inverse dynamics; order of the calls. *)
From Coq Require Import String FunctionalExtensionality.
From Coquelicot Require Import Coquelicot.
From Verif Require PwInterpProofs.
From Verif Require Import Prelude PreludeFacts PwInterpModel SymModel SymSpec SymProofs LagrModel LagrSpec LagrFacts LagrProofs LagrAlgebra LagrRhsProofs.
Open Scope R_scope.
Open Scope list_scope.

Lemma nth_map_seq {A} (f : nat -> A) k i d : (i < k)%nat -> nth i (map f (seq 0 k)) d = f i.
Proof.
  intros Hi. rewrite (nth_indep _ d (f 0%nat)) by (rewrite map_length, seq_length; auto).
  rewrite map_nth, seq_nth by auto. reflexivity.
Qed.
(** ** Without constraints *)
Lemma unconstrained_motion inv s l g t : inverts inv -> NoDup (lg_qs s) -> up_to 1 (lg_L s) ->
  (forall i, (i < lg_n s)%nat -> no_acc (lg_qs s) (lg_forces s i)) ->
  motion g -> (forall x, smooth_at (g x) (lg_L s)) ->
  (exists B, inverse (lg_n s) (ev (g t) (m_d s)) B) ->
  rhs_unconstrained inv (lg_n s) (m_d s) (f_d s) (fun i => Var (lg_q s 1 i)) = Ok l ->
  length l = (2 * lg_n s)%nat /\
  (forall i, (i < lg_n s)%nat -> eval (g t) (nth i l (Num 0)) = g t (lg_q s 1 i)) /\
  ((forall i, (i < lg_n s)%nat -> euler_lagrange (fun r => eval r (lg_L s)) (lg_qs s) i g t = eval (g t) (lg_forces s i)) <->
   (forall i, (i < lg_n s)%nat -> g t (lg_q s 2 i) = eval (g t) (nth (lg_n s + i) l (Num 0)))).
Proof.
  intros Hinv Hn Hu Hf Hm Hs HB E. set (n := lg_n s) in *. unfold rhs_unconstrained in E.
  destruct (inv n (m_d s)) as [N|] eqn:EN; cbn [rbind] in E; [|discriminate]. injection E as <-.
  pose proof (proj1 (Hinv n _ N EN (g t) HB)) as HN.
  split; [|split].
  - rewrite app_length, !map_length, !seq_length. lia.
  - intros i Hi. rewrite app_nth1 by (rewrite map_length, seq_length; auto). rewrite nth_map_seq by auto. reflexivity.
  - assert (R1 : forall i, (i < n)%nat -> eval (g t) (nth (n + i) (map (fun i => Var (lg_q s 1 i)) (seq 0 n) ++ map (emulv n N (f_d s)) (seq 0 n)) (Num 0)) =
                              mv n (ev (g t) N) (evv (g t) (f_d s)) i).
    { intros i Hi. rewrite app_nth2 by (rewrite map_length, seq_length; lia). rewrite map_length, seq_length.
      replace (n + i - n)%nat with i by lia. rewrite nth_map_seq by auto. apply eval_emulv. }
    assert (R2 : forall i, (i < n)%nat -> (euler_lagrange (fun r => eval r (lg_L s)) (lg_qs s) i g t = eval (g t) (lg_forces s i) <->
                              mv n (ev (g t) (m_d s)) (fun j => g t (lg_q s 2 j)) i = evv (g t) (f_d s) i)).
    { intros i Hi. pose proof (mass_forcing_motion s i g t Hn Hu (Hf i Hi) Hm Hs) as X.
      change (rsum (lg_n s) (fun j => eval (g t) (m_d s i j) * g t (lg_q s 2 j))) with (mv n (ev (g t) (m_d s)) (fun j => g t (lg_q s 2 j)) i) in X.
      unfold evv. split; intros; lra. }
    split; intros H i Hi.
    + rewrite R1 by auto. rewrite (mv_ext n _ (ev (g t) N) _ (mv n (ev (g t) (m_d s)) (fun j => g t (lg_q s 2 j))) i); auto.
      * symmetry. apply (mv_inv_l n _ _ (fun j => g t (lg_q s 2 j)) i HN Hi).
      * intros j Hj. symmetry. apply R2; auto.
    + apply R2; auto. rewrite (mv_ext n _ (ev (g t) (m_d s)) _ (mv n (ev (g t) N) (evv (g t) (f_d s))) i); auto.
      * apply mv_inv_r; auto.
      * intros j Hj. rewrite <- R1 by auto. auto.
Qed.

(** ** Implicit dynamics *)
Section Implicit.
Variables (s : lagrange).
Let n := lg_n s.
Let m := length (lg_coneqs s).
Let con k := nth k (lg_coneqs s) (Num 0).
Lemma implicit_length : length (implicit_dynamics_q s) = (n + m)%nat.
Proof. unfold implicit_dynamics_q. rewrite app_length, !map_length, !seq_length. reflexivity. Qed.
Lemma implicit_dyn rho i : NoDup (lg_qs s) -> up_to 1 (lg_L s) -> no_acc (lg_qs s) (lg_forces s i) -> (i < n)%nat ->
  eval rho (nth i (implicit_dynamics_q s) (Num 0)) =
  eval rho (term1 s i) - eval rho (term2 s i) - eval rho (lg_forces s i) + rsum m (fun k => eval rho (lam_coeffs s k i) * rho (lam k)).
Proof.
  intros Hn Hu Hf Hi. unfold implicit_dynamics_q. rewrite app_nth1 by (rewrite map_length, seq_length; auto).
  rewrite nth_map_seq by auto. rewrite eval_Minus. cbn [eval]. rewrite !eval_emulv. cbn [eval]. rewrite <- (mass_forcing rho s i Hn Hu Hf).
  fold n m. unfold etr. ring.
Qed.
Lemma implicit_con rho k : NoDup (lg_qs s) -> up_to 1 (con k) -> (k < m)%nat ->
  eval rho (nth (n + k) (implicit_dynamics_q s) (Num 0)) = eval rho (ddt (con k)).
Proof.
  intros Hn Hu Hk. unfold implicit_dynamics_q. rewrite app_nth2 by (rewrite map_length, seq_length; fold n; lia).
  rewrite map_length, seq_length. fold n m. replace (n + k - n)%nat with k by lia. rewrite nth_map_seq by auto.
  rewrite eval_Minus. cbn [eval]. rewrite eval_esum, eval_emulv. cbn [eval]. rewrite (rsum_zero m) by (intros; cbn; ring).
  unfold f_cd. rewrite eval_Neg. unfold con. rewrite (ddt_affine rho (lg_qs s)) by auto.
  assert (E : rsum n (fun l => eval rho (m_cd s k l) * rho (lg_q s 2 l)) =
              rsum (length (lg_qs s)) (fun j => rho (qd (lg_qs s) 2 j) * eval rho (diff (qd (lg_qs s) 1 j) (nth k (lg_coneqs s) (Num 0))))).
  { apply rsum_ext. intros j Hj. unfold m_cd, lg_q. rewrite diff_qdd_ddt by auto. ring. }
  rewrite E. ring.
Qed.
(** Along a motion. *)
Lemma implicit_motion g t i : NoDup (lg_qs s) -> up_to 1 (lg_L s) -> no_acc (lg_qs s) (lg_forces s i) -> (i < n)%nat ->
  motion g -> (forall x, smooth_at (g x) (lg_L s)) -> (forall k, (k < m)%nat -> smooth_at (g t) (con k)) ->
  eval (g t) (nth i (implicit_dynamics_q s) (Num 0)) =
  euler_lagrange (fun r => eval r (lg_L s)) (lg_qs s) i g t - eval (g t) (lg_forces s i)
  - rsum m (fun k => g t (lam k) * partial (fun r => eval r (con k)) (lg_q s 1 i) (g t)).
Proof.
  intros Hn Hu Hf Hi Hm Hs Hc. rewrite implicit_dyn, euler_lagrange_value by auto.
  replace (rsum m (fun k => eval (g t) (lam_coeffs s k i) * g t (lam k))) with
    (- rsum m (fun k => g t (lam k) * partial (fun r => eval r (con k)) (lg_q s 1 i) (g t))); [ring|].
  transitivity ((-1) * rsum m (fun k => g t (lam k) * partial (fun r => eval r (con k)) (lg_q s 1 i) (g t))); [ring|].
  rewrite <- rsum_scal. apply rsum_ext. intros k Hk. rewrite partial_diff by auto. unfold lam_coeffs. rewrite eval_Neg. unfold con. ring.
Qed.
Lemma implicit_con_motion g t k : NoDup (lg_qs s) -> up_to 1 (con k) -> (k < m)%nat -> motion g -> smooth_at (g t) (con k) ->
  is_derive (fun x => eval (g x) (con k)) t (eval (g t) (nth (n + k) (implicit_dynamics_q s) (Num 0))).
Proof. intros Hn Hu Hk Hm Hs. rewrite implicit_con by auto. apply ddt_derive; auto. Qed.
(** In terms of states. *)
Lemma x_for_nth names : NoDup names -> forall i0 k i lev, (i < length names)%nat ->
  x_for_from i0 k names (nth i names ""%string) lev = match lev with O => Dyn (x_name (i0 + i)) 0 | S l => Dyn (x_name (k + (i0 + i))) l end.
Proof.
  induction 1 as [|q names Hq Hn IH]; intros i0 k i lev Hi; cbn in Hi; [lia|].
  destruct i as [|i]; cbn [nth x_for_from].
  - destruct (string_dec q q); [|congruence]. rewrite Nat.add_0_r. reflexivity.
  - destruct (string_dec (nth i names ""%string) q) as [E|_].
    + exfalso. apply Hq. rewrite <- E. apply nth_In. lia.
    + rewrite IH by lia. replace (S i0 + i)%nat with (i0 + S i)%nat by lia. reflexivity.
Qed.
Lemma x_for_out names m0 : ~ In m0 names -> forall i k lev, x_for_from i k names m0 lev = Dyn m0 lev.
Proof.
  induction names as [|q names IH]; intros H i k lev; cbn [x_for_from]; auto.
  destruct (string_dec m0 q) as [->|]; [exfalso; apply H; now left|]. apply IH. intros Hi. apply H. now right.
Qed.
Lemma implicit_x l : NoDup (lg_qs s) -> x_clear (lg_qs s) ->
  (forall k, (k < m)%nat -> ~ In (("lam" ++ str_nat (k + 1))%string) (lg_qs s)) ->
  implicit_dynamics_x s = Ok l ->
  length l = (n + (n + m))%nat /\
  (forall rho i, (i < n)%nat -> eval rho (nth i l (Num 0)) = rho (Dyn (x_name i) 1) - rho (Dyn (x_name (n + i)) 0)) /\
  (forall rho i, (i < n + m)%nat -> eval rho (nth (n + i) l (Num 0)) = eval (fun a => rho (x_for (lg_qs s) a)) (nth i (implicit_dynamics_q s) (Num 0))).
Proof.
  intros Hn Hx Hlam E. unfold implicit_dynamics_x in E. fold n m in E.
  set (qs := map (fun i => lg_q s 0 i) (seq 0 n)) in E. set (qdots := map (fun i => lg_q s 1 i) (seq 0 n)) in E.
  assert (Hqs : forall k, map (fun i => lg_q s k i) (seq 0 n) = map (fun x => Dyn x k) (lg_qs s)).
  { intros k. apply (list_ext (Dyn ""%string k)).
    - rewrite !map_length, seq_length. reflexivity.
    - intros i Hi. rewrite map_length, seq_length in Hi. rewrite nth_map_seq by auto. rewrite (map_nth (fun x => Dyn x k)). reflexivity. }
  assert (Hc : forall e e', q_2_x e qs qdots = Ok e' -> e' = rename (x_for (lg_qs s)) e).
  { intros e e'. unfold qs, qdots. rewrite !Hqs. apply q_2_x_clear; auto. }
  cbn [rbind] in E.
  match type of E with context [do mid <- ?M; _] => destruct M as [mid|] eqn:EM end; cbn [rbind] in E; [|discriminate].
  match type of E with context [do bot <- ?M; _] => destruct M as [bot|] eqn:EB end; cbn [rbind] in E; [|discriminate].
  injection E as <-.
  destruct (PwInterpProofs.mapm_ok _ _ _ EM) as [LM HM]. destruct (PwInterpProofs.mapm_ok _ _ _ EB) as [LB HBt].
  rewrite seq_length in LM, HM, LB, HBt.
  set (rq := fun (rho : env) a => rho (x_for (lg_qs s) a)).
  assert (R2 : forall (rho : env) j, (j < n)%nat -> rho (Dyn (x_name (n + j)) 1) = rq rho (lg_q s 2 j)).
  { intros rho j Hj. unfold rq, lg_q, qd, x_for. rewrite x_for_nth by auto. reflexivity. }
  assert (RL : forall (rho : env) k, (k < m)%nat -> rho (lam k) = rq rho (lam k)).
  { intros rho k Hk. unfold rq, lam, x_for. rewrite x_for_out by auto. reflexivity. }
  assert (RE : forall rho e, eval rho (rename (x_for (lg_qs s)) e) = eval (rq rho) e) by (intros rho e; exact (eval_rename (x_for (lg_qs s)) e rho)).
  split; [|split].
  - rewrite !app_length, map_length, seq_length, LM, LB. reflexivity.
  - intros rho i Hi. rewrite app_nth1 by (rewrite map_length, seq_length; auto). rewrite nth_map_seq by auto. rewrite eval_Minus. reflexivity.
  - intros rho i Hi. rewrite app_nth2 by (rewrite map_length, seq_length; lia). rewrite map_length, seq_length.
    replace (n + i - n)%nat with i by lia. unfold implicit_dynamics_q. fold n m.
    destruct (Nat.lt_ge_cases i n) as [Hi1|Hi1].
    + rewrite app_nth1 by lia. rewrite app_nth1 by (rewrite map_length, seq_length; auto). rewrite nth_map_seq by auto.
      specialize (HM i 0%nat (Num 0) Hi1). rewrite seq_nth in HM by auto. cbn [Nat.add] in HM.
      destruct (mapm (fun j => q_2_x (m_d s i j) qs qdots) (seq 0 n)) as [row|] eqn:Er; cbn [rbind] in HM; [|discriminate].
      destruct (mapm (fun k => q_2_x (lam_coeffs s k i) qs qdots) (seq 0 m)) as [lrow|] eqn:El; cbn [rbind] in HM; [|discriminate].
      destruct (q_2_x (f_d s i) qs qdots) as [f|] eqn:Ef; cbn [rbind] in HM; [|discriminate].
      injection HM as HM. rewrite <- HM. destruct (PwInterpProofs.mapm_ok _ _ _ Er) as [_ Hr]. destruct (PwInterpProofs.mapm_ok _ _ _ El) as [_ Hl].
      rewrite seq_length in Hr, Hl. apply Hc in Ef. subst f.
      rewrite !eval_Minus. cbn [eval]. rewrite !eval_esum, !eval_emulv, RE. cbn [eval]. f_equal. f_equal.
      * apply rsum_ext. intros j Hj. specialize (Hr j 0%nat (Num 0) Hj). rewrite seq_nth in Hr by auto. cbn [Nat.add] in Hr.
        apply Hc in Hr. rewrite Hr, RE. rewrite R2 by auto. reflexivity.
      * apply rsum_ext. intros k Hk. specialize (Hl k 0%nat (Num 0) Hk). rewrite seq_nth in Hl by auto. cbn [Nat.add] in Hl.
        apply Hc in Hl. rewrite Hl, RE. unfold etr. f_equal. apply RL; auto.
    + rewrite app_nth2 by lia. rewrite LM. rewrite app_nth2 by (rewrite map_length, seq_length; lia). rewrite map_length, seq_length.
      assert (Hk : (i - n < m)%nat) by lia. set (k := (i - n)%nat) in *. rewrite nth_map_seq by auto.
      specialize (HBt k 0%nat (Num 0) Hk). rewrite seq_nth in HBt by auto. cbn [Nat.add] in HBt.
      destruct (mapm (fun j => q_2_x (m_cd s k j) qs qdots) (seq 0 n)) as [row|] eqn:Er; cbn [rbind] in HBt; [|discriminate].
      destruct (q_2_x (f_cd s k) qs qdots) as [f|] eqn:Ef; cbn [rbind] in HBt; [|discriminate].
      injection HBt as HBt. rewrite <- HBt. destruct (PwInterpProofs.mapm_ok _ _ _ Er) as [_ Hr]. rewrite seq_length in Hr. apply Hc in Ef. subst f.
      rewrite !eval_Minus. cbn [eval]. rewrite !eval_esum, !eval_emulv, RE. cbn [eval].
      rewrite (rsum_zero m) by (intros; cbn; ring). rewrite Rplus_0_r. f_equal.
      apply rsum_ext. intros j Hj. specialize (Hr j 0%nat (Num 0) Hj). rewrite seq_nth in Hr by auto. cbn [Nat.add] in Hr.
      apply Hc in Hr. rewrite Hr, RE. rewrite R2 by auto. reflexivity.
Qed.
End Implicit.

(** ** Inverse dynamics *)
Lemma eval_u_zero rho us e : eval rho (u_zero us e) = eval (fun a => if in_dec atom_eq_dec a us then 0 else rho a) e.
Proof.
  induction e as [r | b | e1 IH1 e2 IH2 | e1 IH1 e2 IH2 | f k e IH]; cbn [u_zero eval]; rewrite ?IH1, ?IH2, ?IH; auto.
  destruct (in_dec atom_eq_dec b us); reflexivity.
Qed.
Section Inverse_dynamics.
Variables (s : lagrange) (us : list atom) (rho : env) (E : nat -> nat -> R) (f0 : nat -> R) (pinv : nat -> nat -> emat -> emat).
Let n := lg_n s.
Let p := length us.
Let u k := nth k us (Static ""%string).
Hypothesis Hus : NoDup us.
(** f_i = sum_k E_ik u_k + f0_i, whatever the actuations *)
Hypothesis affine : forall v i, (i < n)%nat -> (forall a, ~ In a us -> v a = rho a) ->
  eval v (f_d s i) = rsum p (fun k => E i k * v (u k)) + f0 i.
Hypothesis smooth : forall i, (i < n)%nat -> smooth_at rho (f_d s i).
Lemma E_value i k : (i < n)%nat -> (k < p)%nat -> eval rho (pinv_E s us i k) = E i k.
Proof.
  intros Hi Hk. unfold pinv_E. fold (u k). rewrite <- partial_diff by auto. unfold partial.
  assert (Hin : In (u k) us) by (apply nth_In; auto).
  rewrite (Derive_ext _ (fun x => E i k * x + (rsum p (fun j => if (j =? k)%nat then 0 else E i j * rho (u j)) + f0 i))).
  - apply is_derive_unique. auto_derive; auto. ring.
  - intros x. rewrite affine; auto.
    + rewrite <- Rplus_assoc. f_equal.
      rewrite (rsum_ext p _ (fun j => (if (j =? k)%nat then E i k * x else 0) + (if (j =? k)%nat then 0 else E i j * rho (u j)))).
      * rewrite rsum_plus, rsum_pick by auto. reflexivity.
      * intros j Hj. unfold upd. destruct (Nat.eqb_spec j k) as [->|Hjk].
        -- destruct (atom_eq_dec (u k) (u k)); [ring|congruence].
        -- destruct (atom_eq_dec (u j) (u k)) as [H|_]; [|ring].
           exfalso. apply Hjk. apply (proj1 (NoDup_nth us (Static ""%string)) Hus); auto.
    + intros a Ha. unfold upd. destruct (atom_eq_dec a (u k)); [subst; contradiction | reflexivity].
Qed.
Lemma f0_value i : (i < n)%nat -> eval rho (u_zero us (f_d s i)) = f0 i.
Proof.
  intros Hi. rewrite eval_u_zero, affine; auto.
  - rewrite rsum_zero; [ring|]. intros k Hk. destruct (in_dec atom_eq_dec (u k) us) as [|H]; [ring|].
    exfalso. apply H. apply nth_In; auto.
  - intros a Ha. destruct (in_dec atom_eq_dec a us); [contradiction | reflexivity].
Qed.
Let P := ev rho (pinv n p (pinv_E s us)).
Let Z i := mv n (ev rho (m_d s)) (fun j => rho (lg_q s 2 j)) i - f0 i.
Lemma pinv_simp_value k : eval rho (sym_pinv_dyn_simp pinv s us k) = mv n P Z k.
Proof.
  unfold sym_pinv_dyn_simp. rewrite eval_emulv. apply rsum_ext. intros i Hi. unfold P, ev. f_equal.
  rewrite eval_Minus, eval_emulv, f0_value by auto. reflexivity.
Qed.
Lemma pinv_impl_value k : eval rho (sym_pinv_dyn_impl pinv s us k) = mv n P Z k.
Proof.
  unfold sym_pinv_dyn_impl. rewrite eval_emulv. apply rsum_ext. intros i Hi. unfold P, ev. f_equal.
  rewrite eval_Minus, eval_Minus, !eval_emulv, (affine rho) by auto. unfold Z. f_equal.
  replace (rsum (length us) (fun l => eval rho (pinv_E s us i l) * eval rho (Var (nth l us (Static ""%string))))) with (rsum p (fun k => E i k * rho (u k))); [ring|].
  apply rsum_ext. intros l Hl. rewrite E_value by auto. reflexivity.
Qed.
Lemma pinv_recovers : (forall k l, (k < p)%nat -> (l < p)%nat -> rsum n (fun i => P k i * E i l) = delta k l) ->
  (forall i, (i < n)%nat -> mv n (ev rho (m_d s)) (fun j => rho (lg_q s 2 j)) i = eval rho (f_d s i)) ->
  forall k, (k < p)%nat -> mv n P Z k = rho (u k).
Proof.
  intros HP Hm k Hk. rewrite (mv_ext n P P Z (mv p E (fun l => rho (u l))) k); auto.
  - rewrite <- mv_mm. apply mv_id; auto. intros; apply HP; auto.
  - intros i Hi. unfold Z. rewrite Hm, (affine rho) by auto. unfold mv. ring.
Qed.
Lemma pinv_produces : (forall i j, (i < n)%nat -> (j < n)%nat -> rsum p (fun k => E i k * P k j) = delta i j) ->
  forall i, (i < n)%nat -> rsum p (fun k => E i k * mv n P Z k) + f0 i = mv n (ev rho (m_d s)) (fun j => rho (lg_q s 2 j)) i.
Proof.
  intros HP i Hi. change (rsum p (fun k => E i k * mv n P Z k)) with (mv p E (mv n P Z) i).
  rewrite <- mv_mm, mv_id by (auto; intros; apply HP; auto). unfold Z. ring.
Qed.
End Inverse_dynamics.

(** ** The order of the calls *)
Section Calls.
Variables constrained reducible : bool.
Definition best : form := if constrained then Complete else Unconstrained.
(** What holds of the object after any calls. *)
Definition is_none {A} (o : option A) : bool := match o with None => true | Some _ => false end.
Definition full_ok (f : option form) (g : form) : bool :=
  match f, g with None, _ | Some Complete, Complete | Some Unconstrained, Unconstrained => true | _, _ => false end.
Definition goodb (o : object) : bool :=
  let c := snd o in
  ((fst o || is_none (ca_rhs c)) &&
   (negb (ca_lambda c) || negb constrained || ca_qdd_de c) &&
   match ca_rhs c with
   | None => negb (ca_reduced c) && is_none (ca_full c) && negb (ca_R c) && negb (ca_qdd_de c)
   | Some Reduced => constrained && reducible && ca_reduced c && is_none (ca_full c) && ca_R c && negb (ca_qdd_de c)
   | Some Complete => constrained && Bool.eqb (ca_reduced c) reducible && full_ok (ca_full c) Complete && ca_R c && ca_qdd_de c
   | Some Unconstrained => negb constrained && negb (ca_reduced c) && full_ok (ca_full c) Unconstrained && negb (ca_R c)
   end)%bool.
End Calls.
Section Histories.
Variables constrained reducible : bool.
(** A test over all objects. *)
Definition ball (f : bool -> bool) : bool := (f true && f false)%bool.
Definition fall (f : option form -> bool) : bool := (f None && f (Some Reduced) && f (Some Complete) && f (Some Unconstrained))%bool.
Definition oall (f : object -> bool) : bool :=
  ball (fun e => fall (fun rh => ball (fun red => fall (fun fl => ball (fun r => ball (fun d => ball (fun la =>
    f (e, {| ca_rhs := rh; ca_reduced := red; ca_full := fl; ca_R := r; ca_qdd_de := d; ca_lambda := la |}))))))))%bool.
Lemma ball_ok f : ball f = true -> forall b, f b = true.
Proof. unfold ball. intros H b. apply andb_prop in H. destruct b; tauto. Qed.
Lemma fall_ok f : fall f = true -> forall b, f b = true.
Proof. unfold fall. intros H b. repeat (apply andb_prop in H; destruct H as [H ?]). destruct b as [[]|]; auto. Qed.
Lemma oall_ok f : oall f = true -> forall o, f o = true.
Proof.
  intros H [e [rh red fl r d la]]. unfold oall in H.
  pose proof (ball_ok _ H e) as H1. pose proof (fall_ok _ H1 rh) as H2. pose proof (ball_ok _ H2 red) as H3.
  pose proof (fall_ok _ H3 fl) as H4. pose proof (ball_ok _ H4 r) as H5. pose proof (ball_ok _ H5 d) as H6.
  exact (ball_ok _ H6 la).
Qed.
Lemma impl_ok (a b : bool) : (negb a || b)%bool = true -> a = true -> b = true.
Proof. destruct a, b; auto. Qed.
Definition form_eqb (a b : form) : bool := match a, b with Reduced, Reduced | Complete, Complete | Unconstrained, Unconstrained => true | _, _ => false end.
Definition answer_eqb (a b : Res answer) : bool :=
  match a, b with
  | Ok (A_rhs f), Ok (A_rhs g) | Ok (A_full f), Ok (A_full g) => form_eqb f g
  | Ok A_lambda, Ok A_lambda | Ok A_nothing, Ok A_nothing => true
  | Err ValueError, Err ValueError | Err AttributeError, Err AttributeError => true
  | _, _ => false
  end.
Lemma answer_eqb_ok a b : answer_eqb a b = true -> a = b.
Proof.
  destruct a as [[f|f| |]|e], b as [[g|g| |]|e']; cbn; try discriminate; auto.
  - destruct f, g; (discriminate || reflexivity).
  - destruct f, g; (discriminate || reflexivity).
  - destruct e; discriminate.
  - destruct e; discriminate.
  - destruct e; discriminate.
  - destruct e; discriminate.
  - destruct e, e'; (discriminate || reflexivity).
Qed.
Lemma good_asked o a : goodb constrained reducible o = true -> goodb constrained reducible (fst (asked constrained reducible o a)) = true.
Proof.
  apply impl_ok. revert o. apply oall_ok. destruct a, constrained, reducible; vm_compute; reflexivity.
Qed.
Lemma good_asks l : forall o, goodb constrained reducible o = true -> goodb constrained reducible (fst (asks constrained reducible o l)) = true.
Proof.
  induction l as [|a l IH]; intros o H; cbn [asks]; auto.
  pose proof (good_asked o a H) as H1. destruct (asked constrained reducible o a) as [o1 r1].
  specialize (IH o1 H1). destruct (asks constrained reducible o1 l). exact IH.
Qed.
Lemma asked_formed o a : fst o = true -> fst (fst (asked constrained reducible o a)) = true.
Proof. apply impl_ok. revert o. apply oall_ok. destruct a, constrained, reducible; vm_compute; reflexivity. Qed.
Lemma formed_asks l : forall o, fst o = true \/ In Ask_form_equations l -> fst (fst (asks constrained reducible o l)) = true.
Proof.
  induction l as [|a l IH]; intros o H; cbn [asks].
  - destruct H as [H|[]]; auto.
  - assert (fst (fst (asked constrained reducible o a)) = true \/ In Ask_form_equations l).
    { destruct H as [H|[H|H]]; auto.
      - left. apply asked_formed; auto.
      - subst a. left. reflexivity. }
    destruct (asked constrained reducible o a) as [o1 r1]. specialize (IH o1 H0). destruct (asks constrained reducible o1 l). exact IH.
Qed.
(** The object after a history. *)
Definition after (l : list ask) : object := fst (asks constrained reducible (false, new_cache) l).
Lemma after_good l : goodb constrained reducible (after l) = true.
Proof. apply good_asks. reflexivity. Qed.
Lemma after_formed l : In Ask_form_equations l -> fst (after l) = true.
Proof. intros H. apply formed_asks. auto. Qed.
(** A test of the answers in every state that calls lead to. *)
Lemma answer_test l (f : object -> bool) : In Ask_form_equations l ->
  oall (fun o => (negb (fst o && goodb constrained reducible o) || f o)%bool) = true -> f (after l) = true.
Proof.
  intros H T. pose proof (oall_ok _ T (after l)) as X. cbv beta in X. rewrite (after_formed l H), after_good in X. exact X.
Qed.
Lemma answer_full l : In Ask_form_equations l -> snd (asked constrained reducible (after l) Ask_full) = Ok (A_full (best constrained)).
Proof.
  intros H. apply answer_eqb_ok. apply (answer_test l (fun o => answer_eqb (snd (asked constrained reducible o Ask_full)) (Ok (A_full (best constrained)))) H).
  destruct constrained, reducible; vm_compute; reflexivity.
Qed.
Lemma answer_complete l : In Ask_form_equations l -> snd (asked constrained reducible (after l) Ask_complete) = Ok (A_rhs (best constrained)).
Proof.
  intros H. apply answer_eqb_ok. apply (answer_test l (fun o => answer_eqb (snd (asked constrained reducible o Ask_complete)) (Ok (A_rhs (best constrained)))) H).
  destruct constrained, reducible; vm_compute; reflexivity.
Qed.
Lemma answer_reduced l : In Ask_form_equations l ->
  snd (asked constrained reducible (after l) Ask_reduced) = if (constrained && reducible)%bool then Ok (A_rhs Reduced) else Err ValueError.
Proof.
  intros H. apply answer_eqb_ok.
  apply (answer_test l (fun o => answer_eqb (snd (asked constrained reducible o Ask_reduced)) (if (constrained && reducible)%bool then Ok (A_rhs Reduced) else Err ValueError)) H).
  destruct constrained, reducible; vm_compute; reflexivity.
Qed.
Lemma answer_rhs l : In Ask_form_equations l ->
  snd (asked constrained reducible (after l) Ask_rhs) = Ok (A_rhs (best constrained)) \/
  (constrained = true /\ reducible = true /\ snd (asked constrained reducible (after l) Ask_rhs) = Ok (A_rhs Reduced)).
Proof.
  intros H.
  assert (T : (answer_eqb (snd (asked constrained reducible (after l) Ask_rhs)) (Ok (A_rhs (best constrained))) ||
               constrained && reducible && answer_eqb (snd (asked constrained reducible (after l) Ask_rhs)) (Ok (A_rhs Reduced)))%bool = true).
  { apply (answer_test l (fun o => (answer_eqb (snd (asked constrained reducible o Ask_rhs)) (Ok (A_rhs (best constrained))) ||
               constrained && reducible && answer_eqb (snd (asked constrained reducible o Ask_rhs)) (Ok (A_rhs Reduced)))%bool) H).
    destruct constrained, reducible; vm_compute; reflexivity. }
  apply orb_prop in T. destruct T as [T|T]; [left; apply answer_eqb_ok; auto|].
  apply andb_prop in T. destruct T as [T1 T2]. apply andb_prop in T1. right. repeat split; try tauto. apply answer_eqb_ok; auto.
Qed.
Lemma asked_unformed o a : fst o = false -> a <> Ask_form_equations -> fst (fst (asked constrained reducible o a)) = false.
Proof.
  intros Ho Ha. assert (T : forall o, (fst o || negb (fst (fst (asked constrained reducible o a))))%bool = true).
  { apply oall_ok. destruct a, constrained, reducible; (vm_compute; reflexivity) || congruence. }
  specialize (T o). rewrite Ho in T. cbn [orb] in T. destruct (fst (fst (asked constrained reducible o a))); [discriminate | reflexivity].
Qed.
Lemma unformed_asks l : forall o, fst o = false -> ~ In Ask_form_equations l -> fst (fst (asks constrained reducible o l)) = false.
Proof.
  induction l as [|a l IH]; intros o Ho Hn; cbn [asks]; auto.
  assert (K := asked_unformed o a Ho ltac:(intros ->; apply Hn; now left)).
  destruct (asked constrained reducible o a) as [o1 r1]. 
  specialize (IH o1 K ltac:(intros Hi; apply Hn; now right)). destruct (asks constrained reducible o1 l). exact IH.
Qed.
Lemma answer_before l : ~ In Ask_form_equations l ->
  forall a, In a [Ask_rhs; Ask_complete; Ask_reduced; Ask_full] -> snd (asked constrained reducible (after l) a) = Err ValueError.
Proof.
  intros H a Ha. assert (F : fst (after l) = false) by (apply unformed_asks; auto).
  assert (T : forall o, (fst o || negb (goodb constrained reducible o) || answer_eqb (snd (asked constrained reducible o a)) (Err ValueError))%bool = true).
  { apply oall_ok. cbn [In] in Ha. destruct a; try (exfalso; intuition congruence); destruct constrained, reducible; vm_compute; reflexivity. }
  specialize (T (after l)). rewrite F, after_good in T. apply answer_eqb_ok. exact T.
Qed.
Lemma answer_lambda l : In Ask_form_equations l ->
  snd (asked constrained reducible (after l) Ask_lambda) = Ok A_lambda \/
  (constrained = true /\ snd (asked constrained reducible (after l) Ask_lambda) = Err AttributeError).
Proof.
  intros H.
  assert (T : (answer_eqb (snd (asked constrained reducible (after l) Ask_lambda)) (Ok A_lambda) ||
               constrained && answer_eqb (snd (asked constrained reducible (after l) Ask_lambda)) (Err AttributeError))%bool = true).
  { apply (answer_test l (fun o => (answer_eqb (snd (asked constrained reducible o Ask_lambda)) (Ok A_lambda) ||
               constrained && answer_eqb (snd (asked constrained reducible o Ask_lambda)) (Err AttributeError))%bool) H).
    destruct constrained, reducible; vm_compute; reflexivity. }
  apply orb_prop in T. destruct T as [T|T]; [left; apply answer_eqb_ok; auto|].
  apply andb_prop in T. right. split; [tauto | apply answer_eqb_ok; tauto].
Qed.
Lemma asks_app l1 : forall l2 o, fst (asks constrained reducible o (l1 ++ l2)) = fst (asks constrained reducible (fst (asks constrained reducible o l1)) l2).
Proof.
  induction l1 as [|x l1 IH]; intros l2 o; cbn [app asks]; auto.
  destruct (asked constrained reducible o x) as [o1 r1]. specialize (IH l2 o1).
  destruct (asks constrained reducible o1 (l1 ++ l2)) as [o2 r2]. destruct (asks constrained reducible o1 l1). exact IH.
Qed.
(** After rhs_full or calculate_RHS_complete the multipliers can be asked. *)
Definition ready (o : object) : bool := (fst o && goodb constrained reducible o && (negb constrained || ca_qdd_de (snd o)))%bool.
Lemma ready_asked o x : ready o = true -> ready (fst (asked constrained reducible o x)) = true.
Proof. apply impl_ok. revert o. apply oall_ok. unfold ready. destruct x, constrained, reducible; vm_compute; reflexivity. Qed.
Lemma ready_asks l : forall o, ready o = true -> ready (fst (asks constrained reducible o l)) = true.
Proof.
  induction l as [|x l IH]; intros o Hr; cbn [asks]; auto.
  pose proof (ready_asked o x Hr) as Q1. destruct (asked constrained reducible o x) as [o1 r1].
  specialize (IH o1 Q1). destruct (asks constrained reducible o1 l). exact IH.
Qed.
Lemma answer_lambda_full l a l' : In Ask_form_equations l -> a = Ask_full \/ a = Ask_complete ->
  snd (asked constrained reducible (after (l ++ a :: l')) Ask_lambda) = Ok A_lambda.
Proof.
  intros H Ha.
  assert (R1 : ready (fst (asked constrained reducible (after l) a)) = true).
  { apply (answer_test l (fun o => ready (fst (asked constrained reducible o a))) H). unfold ready.
    destruct Ha as [-> | ->]; destruct constrained, reducible; vm_compute; reflexivity. }
  assert (R4 : ready (after (l ++ a :: l')) = true).
  { unfold after. rewrite asks_app. fold (after l). cbn [asks].
    pose proof (ready_asks l' _ R1) as R3. clear R1. destruct (asked constrained reducible (after l) a) as [o1 r1]. cbn [fst] in R3.
    destruct (asks constrained reducible o1 l'). exact R3. }
  apply answer_eqb_ok. revert R4. apply impl_ok. generalize (after (l ++ a :: l')). apply oall_ok. unfold ready.
  destruct constrained, reducible; vm_compute; reflexivity.
Qed.
End Histories.
(** Which right-hand side rhs gives depends on what was asked before; the
    multipliers cannot be asked after rhs alone. *)
Lemma rhs_history :
  snd (asks true true (false, new_cache) [Ask_form_equations; Ask_rhs; Ask_complete; Ask_rhs]) =
  [Ok A_nothing; Ok (A_rhs Reduced); Ok (A_rhs Complete); Ok (A_rhs Complete)].
Proof. reflexivity. Qed.
Lemma lambda_history :
  snd (asks true true (false, new_cache) [Ask_form_equations; Ask_lambda; Ask_rhs; Ask_lambda; Ask_full; Ask_lambda]) =
  [Ok A_nothing; Err AttributeError; Ok (A_rhs Reduced); Err AttributeError; Ok (A_full Complete); Ok A_lambda].
Proof. reflexivity. Qed.
