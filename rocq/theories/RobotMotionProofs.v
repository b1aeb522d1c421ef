(** The robot in motion. *)
From Coq Require Import String FunctionalExtensionality.
From Coquelicot Require Import Coquelicot.
From Verif Require Import Prelude PreludeFacts PwInterpModel SymModel LagrModel LagrSpec LagrFacts SymProofs LagrProofs LagrMoreProofs LagrMotionProofs RobotModel RobotSpec RobotProofs RobotChainProofs RobotEnergyProofs.
Open Scope R_scope.
Open Scope list_scope.

Lemma robot_ok links reps s : robot_to_sympy links reps false = Ok s ->
  exists bs, bodies_from 0 links reps inertial (fun _ => Num 0) = Ok bs /\ s = robot links bs.
Proof.
  unfold robot_to_sympy. destruct (bodies_from 0 links reps inertial (fun _ => Num 0)) as [bs|]; [cbn [rbind]|discriminate].
  intros E. inversion E. exists bs. auto.
Qed.
Lemma triple v a b : dot3 (cross v a) b = dot3 v (cross a b).
Proof. unfold dot3, cross. cbn [rsum]. ring. Qed.
Lemma dot3_ext v v' w w' : (forall i, (i < 3)%nat -> v i = v' i) -> (forall i, (i < 3)%nat -> w i = w' i) -> dot3 v w = dot3 v' w'.
Proof. intros H H'. unfold dot3. cbn [rsum]. rewrite !H, !H' by lia. reflexivity. Qed.
(** The cross products with the axes determine the vector. *)
Lemma cross_determined M v w : rotation M -> (forall i j, (i < 3)%nat -> (j < 3)%nat -> cross v (col M j) i = cross w (col M j) i) ->
  forall a, (a < 3)%nat -> dot3 (col M a) v = dot3 (col M a) w.
Proof.
  intros [_ HC] H a Ha. rewrite (dot3_comm (col M a)), (dot3_comm (col M a) w).
  assert (T : forall j k, (j < 3)%nat -> (k < 3)%nat -> (forall i, (i < 3)%nat -> cross (col M j) (col M k) i = col M a i) -> dot3 v (col M a) = dot3 w (col M a)).
  { intros j k Hj Hk E. rewrite <- (dot3_ext v v _ _ (fun _ _ => eq_refl) E), <- (dot3_ext w w _ _ (fun _ _ => eq_refl) E), <- !triple.
    apply dot3_ext; auto. }
  destruct a as [|[|[|a]]]; [| | |lia].
  - apply (T 1%nat 2%nat); try lia. intros i Hi. apply (HC i Hi).
  - apply (T 2%nat 0%nat); try lia. intros i Hi. apply (HC i Hi).
  - apply (T 0%nat 1%nat); try lia. intros i Hi. apply (HC i Hi).
Qed.

Section Motion.
Variables (links : list link) (reps : list replacedict) (bs : list body).
Hypothesis B : bodies_from 0 links reps inertial (fun _ => Num 0) = Ok bs.
Hypothesis HS : sound links reps.
Notation n := (length links).
Notation qs := (names n).
Variable g : R -> env.
Hypothesis G : motion g.
Lemma frame_turning t k : (k < n)%nat -> turning (fun s => pose links reps (g s) k) t (evv (g t) (fr_w (bo_frame (nth_body bs k)))).
Proof.
  intros Hk i j Hi Hj.
  apply (is_derive_ext (fun s => eval (g s) (fr_R (bo_frame (nth_body bs k)) i j))).
  - intros s. apply (pose_R links reps bs B); auto.
  - replace (cross (evv (g t) (fr_w (bo_frame (nth_body bs k)))) (col (pose links reps (g t) k) j) i)
      with (eval (g t) (ddt (fr_R (bo_frame (nth_body bs k)) i j))).
    + apply ddt_derive; auto. rewrite (frame_k links reps bs B k Hk). apply (fine_F links reps bs B HS). lia.
    + rewrite (frame_k links reps bs B k Hk).
      destruct (frames_spin links reps bs B (g t) (S k) ltac:(lia)) as [_ H]. specialize (H i j Hi Hj). unfold dR in H. rewrite H.
      assert (E : forall a b, (a < 3)%nat -> (b < 3)%nat -> ev (g t) (fr_R (frame_at 0 links reps inertial (S k))) a b = pose links reps (g t) k a b).
      { intros a b Ha Hb. rewrite <- (pose_R links reps bs B) by auto. now rewrite (frame_k links reps bs B k Hk). }
      unfold cross, col. destruct i as [|[|[|i]]]; [| | |lia]; rewrite !E by lia; reflexivity.
Qed.
Lemma turning_axes t k w : (k < n)%nat -> turning (fun s => pose links reps (g s) k) t w ->
  forall a, (a < 3)%nat -> dot3 (col (pose links reps (g t) k) a) w = dot3 (col (pose links reps (g t) k) a) (evv (g t) (fr_w (bo_frame (nth_body bs k)))).
Proof.
  intros Hk Hw a Ha. apply cross_determined; auto.
  - now apply (pose_rotation links reps bs B).
  - intros i j Hi Hj. rewrite <- (is_derive_unique _ _ _ (Hw i j Hi Hj)). symmetry.
    rewrite <- (is_derive_unique _ _ _ (frame_turning t k Hk i j Hi Hj)). reflexivity.
Qed.
Lemma inertia_value k rho a b : (k < n)%nat -> (a < 3)%nat -> (b < 3)%nat -> bo_I (nth_body bs k) a b = inertia_at links reps rho k a b.
Proof.
  intros Hk Ha Hb. rewrite (body_k links reps bs B k Hk). cbn [body_of bo_I]. unfold inertia_of, inertia_at, at_link.
  destruct (Nat.ltb_spec a 3); [|lia]. destruct (Nat.ltb_spec b 3); [|lia]. cbn [andb].
  apply eval_ext. intros x Hx. pose proof (upper_k links reps bs B k Hk (Nat.min a b) (Nat.max a b) ltac:(lia) ltac:(lia)) as U. unfold at_link in U. rewrite U in Hx. destruct Hx.
Qed.
Lemma kinetic_meaning t k w : (k < n)%nat -> turning (fun s => pose links reps (g s) k) t w ->
  eval (g t) (kinetic_energy (nth_body bs k)) = kinetic links reps g t w k.
Proof.
  intros Hk Hw. unfold kinetic_energy, kinetic. cbn [eval]. rewrite eval_quad, eval_edot.
  rewrite Rplus_comm, Rmult_assoc. f_equal.
  - rewrite (body_k links reps bs B k Hk) at 1. cbn [body_of bo_m]. unfold at_link. f_equal. f_equal. apply rsum_ext. intros i Hi.
    assert (DD : Derive (fun s => centre links reps (g s) k i) t = eval (g t) (ddt (bo_cm (nth_body bs k) i))).
    { apply is_derive_unique. apply (is_derive_ext (fun s => eval (g s) (bo_cm (nth_body bs k) i))); [intros; now apply (centre_p links reps bs B)|].
      apply ddt_derive; auto. now apply (fine_cm links reps bs B HS). }
    rewrite DD. ring.
  - f_equal.
    assert (E : forall a b, (a < 3)%nat -> (b < 3)%nat ->
       dot3 (col (pose links reps (g t) k) a) w * inertia_at links reps (g t) k a b * dot3 (col (pose links reps (g t) k) b) w =
       dot3 (col (ev (g t) (fr_R (bo_frame (nth_body bs k)))) a) (evv (g t) (fr_w (bo_frame (nth_body bs k)))) * bo_I (nth_body bs k) a b *
       dot3 (col (ev (g t) (fr_R (bo_frame (nth_body bs k)))) b) (evv (g t) (fr_w (bo_frame (nth_body bs k))))).
    { intros a b Ha Hb. rewrite (turning_axes t k w Hk Hw a Ha), (turning_axes t k w Hk Hw b Hb), (inertia_value k (g t) a b Hk Ha Hb).
      assert (EE : forall c, (c < 3)%nat -> dot3 (col (ev (g t) (fr_R (bo_frame (nth_body bs k)))) c) (evv (g t) (fr_w (bo_frame (nth_body bs k)))) =
         dot3 (col (pose links reps (g t) k) c) (evv (g t) (fr_w (bo_frame (nth_body bs k))))).
      { intros c Hc. apply dot3_ext; auto. intros i Hi. unfold col. now apply (pose_R links reps bs B). }
      now rewrite !EE. }
    rewrite (rsum_ext 3 (fun a => rsum 3 _) (fun a => rsum 3 (fun b =>
       dot3 (col (ev (g t) (fr_R (bo_frame (nth_body bs k)))) a) (evv (g t) (fr_w (bo_frame (nth_body bs k)))) * bo_I (nth_body bs k) a b *
       dot3 (col (ev (g t) (fr_R (bo_frame (nth_body bs k)))) b) (evv (g t) (fr_w (bo_frame (nth_body bs k))))))).
    2:{ intros a Ha. apply rsum_ext. intros b Hb. now apply E. }
    unfold quad, dot3, col, ev. cbn [rsum]. unfold world_inertia. rewrite !eval_emul. cbn [rsum]. rewrite !eval_emul. cbn [rsum]. unfold etr. cbn [eval]. ring.
Qed.
Lemma weight_meaning rho k : (k < n)%nat -> eval rho (bo_V (nth_body bs k)) = weight links reps rho k.
Proof.
  intros Hk. unfold weight. rewrite <- (centre_p links reps bs B rho k 2%nat Hk ltac:(lia)). rewrite (body_k links reps bs B k Hk).
  cbn [body_of bo_V bo_cm]. unfold at_link, evv. reflexivity.
Qed.
Lemma lagrangian_meaning t (w : nat -> nat -> R) : (forall k, (k < n)%nat -> turning (fun s => pose links reps (g s) k) t (w k)) ->
  eval (g t) (Lagrangian bs) = rsum n (fun k => kinetic links reps g t (w k) k - weight links reps (g t) k).
Proof.
  intros Hw. unfold Lagrangian. rewrite eval_Minus, !eval_esum, (length_bs links reps bs B), rsum_minus. f_equal; apply rsum_ext; intros k Hk.
  - apply kinetic_meaning; auto.
  - now apply weight_meaning.
Qed.

(** ** Power *)
Lemma energy_meaning t (w : nat -> nat -> R) : (forall k, (k < n)%nat -> turning (fun s => pose links reps (g s) k) t (w k)) ->
  energy (robot links bs) (mass links reps bs) (potential links bs) (g t) = rsum n (fun k => kinetic links reps g t (w k) k + weight links reps (g t) k).
Proof.
  intros Hw. pose proof (lagrangian_meaning t w Hw) as E. rewrite (lagrangian_value links reps bs B HS) in E.
  assert (EV : eval (g t) (potential links bs) = rsum n (fun k => weight links reps (g t) k)).
  { unfold potential. rewrite eval_esum. apply rsum_ext. intros. now apply weight_meaning. }
  rewrite rsum_minus in E. rewrite rsum_plus. unfold energy.
  assert (Ln : lg_n (robot links bs) = n) by (unfold lg_n; cbn [robot lg_qs]; apply names_length). rewrite Ln.
  change (lg_q (robot links bs)) with (qd qs). rewrite EV in E |- *. change (rsum n (fun k => weight links reps (g t) k)) with (rsum n (weight links reps (g t))) in *. lra.
Qed.
Lemma motor_power t (w : R -> nat -> nat -> R) :
  (forall r k, (k < n)%nat -> turning (fun s => pose links reps (g s) k) r (w r k)) ->
  obeys (robot links bs) g t (fun _ => 0) ->
  is_derive (fun r => rsum n (fun k => kinetic links reps g r (w r k) k + weight links reps (g r) k)) t
    (rsum n (fun k => g t (u_symb k) * Derive (fun r => eval (g r) (joint k (nth k reps no_replace))) t)).
Proof.
  intros Hw Ho.
  apply (is_derive_ext (fun r => energy (robot links bs) (mass links reps bs) (potential links bs) (g r))).
  { intros r. apply energy_meaning. auto. }
  pose proof (robot_natural links reps bs B HS) as N.
  assert (Ln : lg_n (robot links bs) = n) by (unfold lg_n; cbn [robot lg_qs]; apply names_length).
  pose proof (power _ _ _ _ N g t (fun j => eval (g t) (lg_forces (robot links bs) j)) G I) as X.
  assert (Y : forall i, (i < lg_n (robot links bs))%nat ->
    rsum (lg_n (robot links bs)) (fun j => eval (g t) (m_d (robot links bs) i j) * g t (lg_q (robot links bs) 2 j)) +
    rsum (lg_n (robot links bs)) (fun j => eval (g t) (C_matrix (robot links bs) i j) * g t (lg_q (robot links bs) 1 j)) + eval (g t) (G_matrix (robot links bs) i) =
    eval (g t) (lg_forces (robot links bs) i)).
  { intros i Hi. rewrite mcg_motion; auto; [|intros r; apply (fair_L links reps bs B HS)]. rewrite (Ho i Hi). cbn [robot lg_coneqs length rsum]. ring. }
  specialize (X Y). rewrite Ln in X. change (lg_q (robot links bs)) with (qd qs) in X.
  replace (rsum n (fun k => g t (u_symb k) * Derive (fun r => eval (g r) (joint k (nth k reps no_replace))) t))
    with (rsum n (fun i => g t (qd qs 1 i) * eval (g t) (lg_forces (robot links bs) i))); [exact X|].
  rewrite (rsum_ext n _ (fun i => rsum n (fun k => g t (u_symb k) * (g t (qd qs 1 i) * eval (g t) (diff (qd qs 0 i) (gam reps k)))))).
  2:{ intros i Hi. rewrite (robot_force links reps bs B HS) by auto. rewrite <- rsum_scal. apply rsum_ext. intros; ring. }
  rewrite rsum_swap. apply rsum_ext. intros k Hk. rewrite rsum_scal. f_equal.
  destruct (fine_joint links reps HS k Hk) as [Fp Fs].
  transitivity (eval (g t) (ddt (gam reps k))).
  2:{ symmetry. apply is_derive_unique. now apply (ddt_derive g t (gam reps k)). }
  rewrite (position_ddt (g t) qs (gam reps k) (names_NoDup n) Fp). now rewrite names_length.
Qed.
End Motion.

(** ** Torques *)
Lemma forces_value links reps s rho j : sound links reps -> robot_to_sympy links reps false = Ok s -> (j < length links)%nat ->
  eval rho (lg_forces s j) =
  rsum (length links) (fun k => rho (u_symb k) * partial (fun r => eval r (joint k (nth k reps no_replace))) (qd (names (length links)) 0 j) rho).
Proof.
  intros HS E Hj. apply robot_ok in E. destruct E as (bs & B & ->). rewrite (robot_force links reps bs B HS) by auto.
  apply rsum_ext. intros k Hk. f_equal. rewrite partial_diff; [reflexivity|]. apply (fine_joint links reps HS k Hk).
Qed.
Lemma forces_own links reps s rho j : sound links reps -> robot_to_sympy links reps false = Ok s -> (j < length links)%nat ->
  (forall k, (k < length links)%nat -> rp_q (nth k reps no_replace) = None) -> eval rho (lg_forces s j) = rho (u_symb j).
Proof.
  intros HS E Hj Hn. rewrite (forces_value links reps s rho j HS E Hj).
  rewrite (rsum_ext _ _ (fun k => if (k =? j)%nat then rho (u_symb j) else 0)).
  - now apply rsum_pick.
  - intros k Hk. rewrite partial_diff by (destruct (HS k Hk) as (_ & _ & _ & _ & _ & _ & _ & Sm); apply Sm).
    unfold joint. rewrite (Hn k Hk). unfold qd. rewrite names_nth by auto. cbn [diff].
    destruct (atom_eq_dec (Dyn ("q_" ++ str_nat k)%string 0) (Dyn (q_name j) 0)) as [E'|E'].
    + assert (k = j). { unfold q_name in E'. injection E' as E'. now apply str_nat_inj. } subst. rewrite Nat.eqb_refl. cbn. ring.
    + destruct (Nat.eqb_spec k j); [subst; now elim E' | cbn; ring].
Qed.
Lemma torques_total links reps bs rho i : bodies_from 0 links reps inertial (fun _ => Num 0) = Ok bs -> (i < 3)%nat ->
  fold_right (fun ft s => evv rho (snd ft) i + s) 0 (force_list bs) = if (length links =? 0)%nat then 0 else rho (u_symb 0) * pose links reps rho 0 i 2%nat.
Proof.
  intros B Hi. rewrite (torque_sum links reps bs B). destruct (Nat.eqb_spec (length links) 0); [reflexivity|]. f_equal.
  rewrite <- (pose_R links reps bs B) by lia. unfold zd. rewrite (frame_k links reps bs B) by lia. reflexivity.
Qed.
(** ** The robot *)
Lemma robot_L links reps s g t (w : nat -> nat -> R) : sound links reps -> robot_to_sympy links reps false = Ok s -> motion g ->
  (forall k, (k < length links)%nat -> turning (fun r => pose links reps (g r) k) t (w k)) ->
  eval (g t) (lg_L s) = rsum (length links) (fun k => kinetic links reps g t (w k) k - weight links reps (g t) k).
Proof. intros HS E G Hw. apply robot_ok in E. destruct E as (bs & B & ->). apply (lagrangian_meaning links reps bs B HS g G t w Hw). Qed.
Lemma robot_turning links reps s g t : sound links reps -> robot_to_sympy links reps false = Ok s -> motion g ->
  exists w : nat -> nat -> R, forall k, (k < length links)%nat -> turning (fun r => pose links reps (g r) k) t (w k).
Proof.
  intros HS E G. apply robot_ok in E. destruct E as (bs & B & ->). exists (fun k => evv (g t) (fr_w (bo_frame (nth_body bs k)))).
  intros k Hk. apply (frame_turning links reps bs B HS g G t k Hk).
Qed.
Lemma robot_names links reps s : robot_to_sympy links reps false = Ok s -> lg_qs s = names (length links) /\ lg_coneqs s = [].
Proof. intros E. apply robot_ok in E. destruct E as (bs & B & ->). auto. Qed.
Lemma robot_is_natural links reps s : sound links reps -> robot_to_sympy links reps false = Ok s -> exists m V, natural (fun _ => True) s m V.
Proof. intros HS E. apply robot_ok in E. destruct E as (bs & B & ->). eexists _, _. now apply (robot_natural links reps bs B HS). Qed.
Lemma robot_power links reps s g t (w : R -> nat -> nat -> R) : sound links reps -> robot_to_sympy links reps false = Ok s -> motion g ->
  (forall r k, (k < length links)%nat -> turning (fun x => pose links reps (g x) k) r (w r k)) -> obeys s g t (fun _ => 0) ->
  is_derive (fun r => rsum (length links) (fun k => kinetic links reps g r (w r k) k + weight links reps (g r) k)) t
    (rsum (length links) (fun k => g t (u_symb k) * Derive (fun r => eval (g r) (joint k (nth k reps no_replace))) t)).
Proof. intros HS E G Hw Ho. apply robot_ok in E. destruct E as (bs & B & ->). apply (motor_power links reps bs B HS g G t w Hw Ho). Qed.
Lemma bodies_at links reps bs rho k : bodies_from 0 links reps inertial (fun _ => Num 0) = Ok bs -> (k < length links)%nat ->
  length bs = length links /\ rotation (pose links reps rho k) /\
  forall i, (i < 3)%nat ->
    (forall j, (j < 3)%nat -> eval rho (fr_R (bo_frame (nth k bs no_body)) i j) = pose links reps rho k i j) /\
    eval rho (bo_cm (nth k bs no_body) i) = centre links reps rho k i.
Proof.
  intros B Hk. split; [apply (length_bs links reps bs B)|]. split; [now apply (pose_rotation links reps bs B)|].
  intros i Hi. split; [intros j Hj; now apply (pose_R links reps bs B) | now apply (centre_p links reps bs B)].
Qed.
Lemma bodies_turn links reps bs g t k : sound links reps -> motion g -> bodies_from 0 links reps inertial (fun _ => Num 0) = Ok bs -> (k < length links)%nat ->
  turning (fun r => pose links reps (g r) k) t (evv (g t) (fr_w (bo_frame (nth k bs no_body)))).
Proof. intros HS G B Hk. now apply (frame_turning links reps bs B HS g G t k). Qed.
