(** The Lagrangian of the chain of bodies. *)
From Coq Require Import String FunctionalExtensionality.
From Coquelicot Require Import Coquelicot.
From Verif Require Import Prelude PreludeFacts PwInterpModel SymModel LagrModel LagrSpec LagrFacts SymProofs LagrProofs LagrRhsProofs LagrMoreProofs RobotModel RobotSpec RobotProofs RobotChainProofs.
Open Scope R_scope.
Open Scope list_scope.

(** ** Quadratic forms *)
Definition quad (W : nat -> nat -> R) (v w : nat -> R) : R := rsum 3 (fun i => v i * rsum 3 (fun j => W i j * w j)).
Lemma quad_l W N x (A : nat -> nat -> R) w : quad W (fun i => rsum N (fun j => x j * A j i)) w = rsum N (fun j => x j * quad W (A j) w).
Proof. induction N; [unfold quad; cbn [rsum]; ring|]. cbn [rsum]. rewrite <- IHN. unfold quad. cbn [rsum]. ring. Qed.
Lemma quad_r W N x (A : nat -> nat -> R) v : quad W v (fun i => rsum N (fun j => x j * A j i)) = rsum N (fun j => x j * quad W v (A j)).
Proof. induction N; [unfold quad; cbn [rsum]; ring|]. cbn [rsum]. rewrite <- IHN. unfold quad. cbn [rsum]. ring. Qed.
Lemma quad_ext W v w v' w' : (forall i, (i < 3)%nat -> v i = v' i) -> (forall i, (i < 3)%nat -> w i = w' i) -> quad W v w = quad W v' w'.
Proof. intros H H'. unfold quad. cbn [rsum]. rewrite !H, !H' by lia. reflexivity. Qed.
Lemma quad_expand W N x (A : nat -> nat -> R) :
  quad W (fun i => rsum N (fun j => x j * A j i)) (fun i => rsum N (fun j => x j * A j i)) =
  rsum N (fun a => rsum N (fun b => quad W (A a) (A b) * x a * x b)).
Proof.
  rewrite quad_l. apply rsum_ext. intros a Ha. rewrite quad_r, <- rsum_scal. apply rsum_ext. intros b Hb. ring.
Qed.
Lemma quad_sym W v w : (forall i j, (i < 3)%nat -> (j < 3)%nat -> W i j = W j i) -> quad W v w = quad W w v.
Proof.
  intros H. unfold quad. cbn [rsum]. rewrite (H 1%nat 0%nat), (H 2%nat 0%nat), (H 2%nat 1%nat) by lia. ring.
Qed.
Lemma eval_edot rho v w : eval rho (edot v w) = rsum 3 (fun i => eval rho (v i) * eval rho (w i)).
Proof. unfold edot. rewrite eval_esum. reflexivity. Qed.
Lemma eval_quad rho v w (W : emat) : eval rho (edot v (emulv 3 W w)) = quad (ev rho W) (evv rho v) (evv rho w).
Proof. rewrite eval_edot. unfold quad. apply rsum_ext. intros i _. rewrite eval_emulv. reflexivity. Qed.
Lemma eval_dot rho v w : eval rho (edot v w) = quad delta (evv rho v) (evv rho w).
Proof. rewrite eval_edot. unfold quad, delta, evv. cbn [rsum Nat.eqb]. ring. Qed.
Lemma names_NoDup n : NoDup (names n).
Proof.
  unfold names. apply FinFun.Injective_map_NoDup; [|apply seq_NoDup]. intros i j E. cbn in E. injection E as E. now apply str_nat_inj.
Qed.
Lemma names_length n : length (names n) = n. Proof. unfold names. now rewrite map_length, seq_length. Qed.
Lemma names_nth n k d : (k < n)%nat -> nth k (names n) d = q_name k.
Proof. intros Hk. unfold names. now rewrite nth_map_seq. Qed.

Section Energy.
Variables (links : list link) (reps : list replacedict) (bs : list body).
Hypothesis B : bodies_from 0 links reps inertial (fun _ => Num 0) = Ok bs.
Hypothesis HS : sound links reps.
Notation n := (length links).
Notation qs := (names n).
Notation F := (frame_at 0 links reps inertial).
Notation gam := (gam reps).
Notation fine := (fine links).

Definition Aw (k j : nat) : evec := fun i => esum (S k) (fun l => Times (diff (qd qs 0 j) (gam l)) (fr_R (F (S l)) i 2%nat)).
Definition Jv (k j : nat) : evec := fun i => diff (qd qs 0 j) (bo_cm (nth_body bs k) i).
Definition mass : emat := fun a b => esum n (fun k =>
  Plus (edot (Aw k a) (emulv 3 (world_inertia (nth_body bs k)) (Aw k b))) (Times (bo_m (nth_body bs k)) (edot (Jv k a) (Jv k b)))).
Definition potential : expr := esum n (fun k => bo_V (nth_body bs k)).
Lemma frame_k k : (k < n)%nat -> bo_frame (nth_body bs k) = F (S k).
Proof. intros Hk. rewrite (body_k links reps bs B k Hk). reflexivity. Qed.
Lemma w_jacobian rho k i : (k < n)%nat ->
  eval rho (fr_w (bo_frame (nth_body bs k)) i) = rsum n (fun j => rho (qd qs 1 j) * eval rho (Aw k j i)).
Proof.
  intros Hk. rewrite frame_k by auto. rewrite (w_sum links reps bs B HS) by lia.
  rewrite (rsum_ext (S k) _ (fun l => rsum n (fun j => rho (qd qs 1 j) * (eval rho (diff (qd qs 0 j) (gam l)) * eval rho (fr_R (F (S l)) i 2%nat))))).
  2:{ intros l Hl. rewrite (position_ddt rho qs (gam l) (names_NoDup n)) by (apply (fine_joint links reps HS l); lia). rewrite names_length.
      rewrite <- rsum_scal_r. apply rsum_ext. intros j Hj. ring. }
  rewrite rsum_swap. apply rsum_ext. intros j Hj. unfold Aw. rewrite eval_esum. cbn [eval]. now rewrite <- rsum_scal.
Qed.
Lemma v_jacobian rho k i : (k < n)%nat -> (i < 3)%nat ->
  eval rho (ddt (bo_cm (nth_body bs k) i)) = rsum n (fun j => rho (qd qs 1 j) * eval rho (Jv k j i)).
Proof.
  intros Hk Hi. rewrite (position_ddt rho qs _ (names_NoDup n)) by (apply (fine_cm links reps bs B HS k i Hk)). now rewrite names_length.
Qed.
Lemma kinetic_value rho k : (k < n)%nat ->
  eval rho (kinetic_energy (nth_body bs k)) =
  / 2 * rsum n (fun a => rsum n (fun b =>
     eval rho (Plus (edot (Aw k a) (emulv 3 (world_inertia (nth_body bs k)) (Aw k b))) (Times (bo_m (nth_body bs k)) (edot (Jv k a) (Jv k b)))) *
     rho (qd qs 1 a) * rho (qd qs 1 b))).
Proof.
  intros Hk. unfold kinetic_energy. cbn [eval]. rewrite eval_quad, eval_dot.
  rewrite (quad_ext _ _ _ (fun i => rsum n (fun j => rho (qd qs 1 j) * evv rho (Aw k j) i)) (fun i => rsum n (fun j => rho (qd qs 1 j) * evv rho (Aw k j) i)))
    by (intros; now apply w_jacobian).
  rewrite (quad_ext delta _ _ (fun i => rsum n (fun j => rho (qd qs 1 j) * evv rho (Jv k j) i)) (fun i => rsum n (fun j => rho (qd qs 1 j) * evv rho (Jv k j) i)))
    by (intros; now apply v_jacobian).
  rewrite !quad_expand.
  rewrite <- Rmult_plus_distr_l, <- rsum_scal, <- rsum_plus. f_equal. apply rsum_ext. intros a Ha.
  rewrite <- rsum_scal, <- rsum_plus. apply rsum_ext. intros b Hb. cbn [eval]. rewrite eval_quad, eval_dot. unfold evv. ring.
Qed.
Lemma lagrangian_value rho :
  eval rho (Lagrangian bs) = / 2 * rsum n (fun a => rsum n (fun b => eval rho (mass a b) * rho (qd qs 1 a) * rho (qd qs 1 b))) - eval rho potential.
Proof.
  unfold Lagrangian. rewrite eval_Minus, !eval_esum, (length_bs links reps bs B). unfold potential. rewrite eval_esum. f_equal.
  rewrite (rsum_ext n _ _ (fun k Hk => kinetic_value rho k Hk)). rewrite rsum_scal. f_equal.
  rewrite rsum_swap. apply rsum_ext. intros a Ha. rewrite rsum_swap. apply rsum_ext. intros b Hb.
  unfold mass. rewrite eval_esum. rewrite <- !rsum_scal_r. reflexivity.
Qed.
Lemma I_sym k a b : (k < n)%nat -> bo_I (nth_body bs k) a b = bo_I (nth_body bs k) b a.
Proof. intros Hk. rewrite (body_k links reps bs B k Hk). cbn [body_of bo_I]. unfold inertia_of. rewrite Nat.min_comm, Nat.max_comm, Bool.andb_comm. reflexivity. Qed.
Lemma world_sym rho k i j : (k < n)%nat -> ev rho (world_inertia (nth_body bs k)) i j = ev rho (world_inertia (nth_body bs k)) j i.
Proof.
  intros Hk. unfold ev, world_inertia. rewrite !eval_emul. cbn [rsum]. rewrite !eval_emul. cbn [rsum]. unfold etr. cbn [eval].
  rewrite (I_sym k 1%nat 0%nat Hk), (I_sym k 2%nat 0%nat Hk), (I_sym k 2%nat 1%nat Hk). ring.
Qed.
Lemma mass_sym rho a b : eval rho (mass a b) = eval rho (mass b a).
Proof.
  unfold mass. rewrite !eval_esum. apply rsum_ext. intros k Hk. cbn [eval]. rewrite !eval_quad, !eval_dot.
  rewrite (quad_sym _ (evv rho (Aw k a))) by (intros; now apply world_sym).
  rewrite (quad_sym delta (evv rho (Jv k a))); [reflexivity|]. intros i j _ _. unfold delta. now rewrite Nat.eqb_sym.
Qed.
Lemma fine_Aw k j i : (k < n)%nat -> fine (Aw k j i).
Proof.
  intros Hk. apply fine_esum. intros l Hl. apply fine_times; [apply fine_diff, (fine_joint links reps HS); lia | apply (fine_F links reps bs B HS); lia].
Qed.
Lemma fine_Jv k j i : (k < n)%nat -> fine (Jv k j i).
Proof. intros Hk. apply fine_diff. now apply (fine_cm links reps bs B HS). Qed.
Lemma fine_world k i j : (k < n)%nat -> fine (world_inertia (nth_body bs k) i j).
Proof.
  intros Hk. unfold world_inertia. rewrite frame_k by auto.
  apply fine_emul; [apply fine_emul|]; intros; try apply fine_num; unfold etr; apply (fine_F links reps bs B HS); lia.
Qed.
Lemma fine_edot v w : (forall i, fine (v i)) -> (forall i, fine (w i)) -> fine (edot v w).
Proof. intros. apply fine_esum. intros. now apply fine_times. Qed.
Lemma fine_mass a b : fine (mass a b).
Proof.
  apply fine_esum. intros k Hk. apply fine_plus.
  - apply fine_edot; [intros; now apply fine_Aw|]. intros i. apply fine_esum. intros l Hl. apply fine_times; [now apply fine_world | now apply fine_Aw].
  - apply fine_times; [now apply (fine_m links reps bs B HS)|]. apply fine_edot; intros; now apply fine_Jv.
Qed.
Lemma fine_potential : fine potential.
Proof. apply fine_esum. intros. now apply (fine_V links reps bs B HS). Qed.

(** First-order, smooth expressions. *)
Definition fair (e : expr) : Prop := up_to 1 e /\ forall rho, smooth_at rho e.
Lemma fair_plus a b : fair a -> fair b -> fair (Plus a b).
Proof. intros [Ha Ha'] [Hb Hb']. split; [|intros rho; split; auto]. intros x j Hx. cbn [atoms] in Hx. apply in_app_iff in Hx. destruct Hx; [now apply (Ha x) | now apply (Hb x)]. Qed.
Lemma fair_times a b : fair a -> fair b -> fair (Times a b).
Proof. intros [Ha Ha'] [Hb Hb']. split; [|intros rho; split; auto]. intros x j Hx. cbn [atoms] in Hx. apply in_app_iff in Hx. destruct Hx; [now apply (Ha x) | now apply (Hb x)]. Qed.
Lemma fair_num x : fair (Num x).
Proof. split; [intros ? ? [] | intros; exact I]. Qed.
Lemma fair_esum k f : (forall i, (i < k)%nat -> fair (f i)) -> fair (esum k f).
Proof. induction k; intros H; cbn [esum]; [apply fair_num | apply fair_plus; auto]. Qed.
Lemma fair_fine e : fine e -> fair e.
Proof. intros H. split; [|apply H]. intros x j Hx. apply (fine_up_to links e H) in Hx. lia. Qed.
Lemma fair_ddt e : fine e -> fair (ddt e).
Proof. intros H. split; [apply up_to_ddt, (fine_up_to links e H) | intros; apply smooth_ddt, H]. Qed.
Lemma fair_diff s e : fair e -> fair (diff s e).
Proof. intros [H H']. split; [now apply up_to_diff | intros; now apply smooth_diff]. Qed.
Lemma fair_w k i : (k < n)%nat -> fair (fr_w (bo_frame (nth_body bs k)) i).
Proof. intros Hk. rewrite frame_k by auto. apply (w_level links reps bs B HS). lia. Qed.
Lemma fair_edot v w : (forall i, fair (v i)) -> (forall i, fair (w i)) -> fair (edot v w).
Proof. intros. apply fair_esum. intros. now apply fair_times. Qed.
Lemma fair_L : fair (Lagrangian bs).
Proof.
  unfold Lagrangian. rewrite (length_bs links reps bs B). apply fair_plus; [|apply fair_times; [apply fair_num|]]; apply fair_esum; intros k Hk.
  - unfold kinetic_energy. apply fair_plus; apply fair_times; try apply fair_num.
    + apply fair_edot; [intros; now apply fair_w|]. intros i. apply fair_esum. intros l Hl. apply fair_times; [apply fair_fine; now apply fine_world | now apply fair_w].
    + apply fair_times; [apply fair_fine; now apply (fine_m links reps bs B HS)|].
      apply fair_edot; intros; apply fair_ddt; now apply (fine_cm links reps bs B HS).
  - apply fair_fine. now apply (fine_V links reps bs B HS).
Qed.
Lemma fair_force x : fair (generalised_force (force_list bs) x).
Proof.
  unfold generalised_force.
  assert (A : forall fl e0, (forall ft, In ft fl -> forall i, fair (fr_w (fst ft) i) /\ fair (snd ft i)) -> fair e0 ->
    fair (fold_left (fun s ft => Plus s (edot (fun i => diff x (fr_w (fst ft) i)) (snd ft))) fl e0)).
  { induction fl as [|ft fl IH]; intros e0 H H0; [exact H0|]. cbn [fold_left]. apply IH; [intros; apply H; now right|].
    apply fair_plus; auto. apply fair_edot; intros i; [apply fair_diff|]; apply (H ft); now left. }
  apply A; [|apply fair_num]. intros ft Hft i. unfold force_list in Hft. rewrite (length_bs links reps bs B) in Hft. apply in_app_iff in Hft.
  assert (U : forall k, fair (Var (u_symb k))).
  { intros k. split; [|intros; exact I]. intros nm l [E|[]]. discriminate. }
  assert (Z : forall k, (k < n)%nat -> fair (axis_z (nth_body bs k) i)).
  { intros k Hk. unfold axis_z. rewrite frame_k by auto. apply fair_fine. apply (fine_F links reps bs B HS). lia. }
  destruct Hft as [X|X]; apply in_map_iff in X; destruct X as (k & <- & Hk); apply in_seq in Hk; cbn [fst snd].
  - split; [apply fair_w; lia|]. apply fair_times; auto. apply Z. lia.
  - split; [apply fair_w; lia|]. apply fair_times; [apply fair_times; [apply fair_num | apply U] | apply Z; lia].
Qed.

Definition robot : lagrange :=
  {| lg_L := Lagrangian bs; lg_qs := map q_name (seq 0 n); lg_forces := fun j => generalised_force (force_list bs) (Dyn (q_name j) 1); lg_coneqs := [] |}.
Lemma robot_natural : natural (fun _ => True) robot mass potential.
Proof.
  assert (Ln : lg_n robot = n) by (unfold lg_n; cbn [robot lg_qs]; apply names_length).
  constructor.
  - intros rho d _. exists (mkposreal 1 Rlt_0_1). auto.
  - apply names_NoDup.
  - intros rho _. apply fair_L.
  - apply fair_L.
  - intros i j _ _. split; [intros rho _; apply fine_mass | apply fine_mass].
  - split; [intros rho _; apply fine_potential | apply fine_potential].
  - intros i _ nm j _ Hj X. apply (fair_force _) in X. lia.
  - intros i _ rho _. apply (fair_force _).
  - intros. apply mass_sym.
  - intros rho _. rewrite Ln. apply lagrangian_value.
Qed.
Lemma robot_force rho j : (j < n)%nat -> eval rho (lg_forces robot j) = rsum n (fun k => rho (u_symb k) * eval rho (diff (qd qs 0 j) (gam k))).
Proof.
  intros Hj. cbn [robot lg_forces]. rewrite <- (torque_value links reps bs B HS rho j). unfold qd. now rewrite names_nth.
Qed.
End Energy.
