(** The chain of bodies, its Lagrangian and its torques. *)
From Coq Require Import String FunctionalExtensionality.
From Coquelicot Require Import Coquelicot.
From Verif Require Import Prelude PreludeFacts PwInterpModel SymModel LagrModel LagrSpec LagrFacts LagrProofs LagrRhsProofs LagrMoreProofs RobotModel RobotSpec RobotProofs.
Open Scope R_scope.
Open Scope list_scope.

Section Robot.
Variables (links : list link) (reps : list replacedict) (bs : list body).
Hypothesis B : bodies_from 0 links reps inertial (fun _ => Num 0) = Ok bs.
Let n := length links.
Let F := frame_at 0 links reps inertial.
Let P := point_at 0 links reps inertial (fun _ => Num 0).
Lemma F_0 : F 0%nat = inertial. Proof. unfold F. destruct links, reps; reflexivity. Qed.
Lemma P_0 : P 0%nat = (fun _ => Num 0). Proof. unfold P. destruct links, reps; reflexivity. Qed.
Lemma F_S k : (k < n)%nat -> F (S k) = turned (F k) (nth k links no_link) (nth k reps no_replace) (joint k (nth k reps no_replace)).
Proof. intros Hk. destruct (built _ _ _ _ _ _ B) as (_ & _ & H). apply (H k Hk). Qed.
Lemma P_S k : (k < n)%nat -> P (S k) = moved (F k) (P k) (nth k links no_link) (nth k reps no_replace).
Proof. intros Hk. destruct (built _ _ _ _ _ _ B) as (_ & _ & H). apply (H k Hk). Qed.
Lemma body_k k : (k < n)%nat -> nth_body bs k = body_of (F (S k)) (P (S k)) (nth k links no_link) (nth k reps no_replace).
Proof. intros Hk. destruct (built _ _ _ _ _ _ B) as (_ & _ & H). apply (H k Hk). Qed.
Lemma upper_k k : (k < n)%nat -> upper (at_link links reps p_I k).
Proof. intros Hk. destruct (built _ _ _ _ _ _ B) as (_ & _ & H). apply (H k Hk). Qed.
Lemma length_bs : length bs = n.
Proof. apply (built _ _ _ _ _ _ B). Qed.

(** ** Orientation *)
Lemma frames_spin rho k : (k <= n)%nat -> spins rho (F k).
Proof.
  induction k; intros Hk; [rewrite F_0; apply inertial_spins|]. rewrite F_S by lia. unfold turned.
  apply orient_z_spins, orient_z_spins, orient_x_spins, IHk. lia.
Qed.

(** ** Position *)
Lemma turned_R rho f lk rp q i j : ev rho (fr_R (turned f lk rp q)) i j =
  let M := ev rho (fr_R f) in let c := cos (eval rho (p_theta lk rp) + eval rho q) in let s := sin (eval rho (p_theta lk rp) + eval rho q) in
  let ca := cos (eval rho (p_alpha lk rp)) in let sa := sin (eval rho (p_alpha lk rp)) in
  match j with
  | 0%nat => M i 0%nat * c + (M i 1%nat * ca + M i 2%nat * sa) * s
  | 1%nat => - M i 0%nat * s + (M i 1%nat * ca + M i 2%nat * sa) * c
  | 2%nat => - M i 1%nat * sa + M i 2%nat * ca
  | _ => 0
  end.
Proof.
  unfold turned. cbv zeta. rewrite cos_plus, sin_plus.
  destruct j as [|[|[|j]]]; rewrite ?orient_z_R; cbv zeta; cbn [Nat.eqb]; rewrite ?orient_z_R, ?orient_x_R; cbv zeta iota beta; try rewrite ?orient_x_R; cbv zeta iota beta; ring.
Qed.
Lemma moved_p rho f p lk rp i : evv rho (moved f p lk rp) i =
  evv rho p i + (eval rho (p_d lk rp) * (- ev rho (fr_R f) i 1%nat * sin (eval rho (p_alpha lk rp)) + ev rho (fr_R f) i 2%nat * cos (eval rho (p_alpha lk rp))) +
                 eval rho (p_a lk rp) * ev rho (fr_R f) i 0%nat).
Proof.
  unfold evv at 1, moved. cbn [eval].
  change (eval rho (fr_R (orient_z (orient_x f (p_alpha lk rp)) (p_theta lk rp)) i 2%nat)) with (ev rho (fr_R (orient_z (orient_x f (p_alpha lk rp)) (p_theta lk rp))) i 2%nat).
  rewrite orient_z_R. cbv zeta iota beta. rewrite orient_x_R. cbv zeta iota beta. unfold evv, ev. ring.
Qed.
Lemma chain_pose rho k : (k <= n)%nat ->
  (forall i j, (i < 3)%nat -> (j < 3)%nat -> chain (joint_T links reps rho) k i j = ev rho (fr_R (F k)) i j) /\
  (forall i, (i < 3)%nat -> chain (joint_T links reps rho) k i 3%nat = evv rho (P k) i) /\
  (forall j, (j < 4)%nat -> chain (joint_T links reps rho) k 3%nat j = delta 3 j).
Proof.
  induction k; intros Hk.
  - rewrite F_0, P_0. cbn [chain]. repeat apply conj.
    + intros i j Hi Hj. unfold ev, inertial, delta. cbn [fr_R]. destruct (i =? j)%nat; reflexivity.
    + intros i Hi. unfold delta. destruct (Nat.eqb_spec i 3); [lia | reflexivity].
    + auto.
  - destruct (IHk ltac:(lia)) as (H1 & H2 & H3). rewrite F_S, P_S by lia. cbn [chain].
    set (C := chain (joint_T links reps rho) k) in *.
    repeat apply conj.
    + intros i j Hi Hj. rewrite turned_R. cbv zeta. unfold mm4. cbn [rsum]. rewrite !H1, H2 by lia. unfold joint_T, at_link.
      destruct j as [|[|[|j]]]; [| | |lia]; cbn [craig]; ring.
    + intros i Hi. rewrite moved_p. unfold mm4. cbn [rsum]. rewrite !H1, H2 by lia. unfold joint_T, at_link. cbn [craig]. ring.
    + intros j Hj. unfold mm4. cbn [rsum]. rewrite !H3 by lia. unfold delta. cbn [Nat.eqb]. unfold joint_T.
      destruct j as [|[|[|[|j]]]]; [| | | |lia]; cbn [craig Nat.eqb]; ring.
Qed.
Lemma pose_R rho k i j : (k < n)%nat -> (i < 3)%nat -> (j < 3)%nat -> ev rho (fr_R (bo_frame (nth_body bs k))) i j = pose links reps rho k i j.
Proof. intros Hk Hi Hj. rewrite body_k by auto. cbn [body_of bo_frame]. unfold pose. symmetry. now apply chain_pose. Qed.
Lemma centre_p rho k i : (k < n)%nat -> (i < 3)%nat -> evv rho (bo_cm (nth_body bs k)) i = centre links reps rho k i.
Proof.
  intros Hk Hi. rewrite body_k by auto. unfold centre, pose. destruct (chain_pose rho (S k) Hk) as (H1 & H2 & _).
  cbn [rsum]. rewrite !H1, H2 by lia. unfold evv at 1. cbn [body_of bo_cm]. unfold arr_to_vect, at_link. cbn [eval]. unfold evv, ev. ring.
Qed.
Lemma pose_rotation rho k : (k < n)%nat -> rotation (pose links reps rho k).
Proof.
  intros Hk. apply (rotation_ext (ev rho (fr_R (F (S k))))); [|apply frames_spin; lia].
  intros i j Hi Hj. unfold pose. symmetry. now apply chain_pose.
Qed.

(** ** Symbols and smoothness *)
Hypothesis HS : sound links reps.
Let qs := names n.
Lemma steady_position e : steady e -> of_position qs e.
Proof. intros [H _] a Ha. left. auto. Qed.
Definition fine (e : expr) : Prop := of_position qs e /\ forall rho, smooth_at rho e.
Lemma fine_plus a b : fine a -> fine b -> fine (Plus a b).
Proof. intros [Ha Ha'] [Hb Hb']. split; [|intros rho; split; auto]. intros x Hx. cbn [atoms] in Hx. apply in_app_iff in Hx. destruct Hx; auto. Qed.
Lemma fine_times a b : fine a -> fine b -> fine (Times a b).
Proof. intros [Ha Ha'] [Hb Hb']. split; [|intros rho; split; auto]. intros x Hx. cbn [atoms] in Hx. apply in_app_iff in Hx. destruct Hx; auto. Qed.
Lemma fine_num x : fine (Num x).
Proof. split; [intros a []|intros; exact I]. Qed.
Lemma fine_cos e : fine e -> fine (Cos e).
Proof. intros [H H']. split; [exact H | intros; now apply Cos_smooth]. Qed.
Lemma fine_sin e : fine e -> fine (Sin e).
Proof. intros [H H']. split; [exact H | intros; now apply Sin_smooth]. Qed.
Lemma fine_esum k f : (forall i, (i < k)%nat -> fine (f i)) -> fine (esum k f).
Proof. induction k; intros H; cbn [esum]; [apply fine_num | apply fine_plus; auto]. Qed.
Lemma fine_diff s e : fine e -> fine (diff s e).
Proof. intros [H H']. split; [intros a Ha; apply atoms_diff in Ha; auto | intros; now apply smooth_diff]. Qed.
Lemma fine_neg e : fine e -> fine (Neg e).
Proof. intros. apply fine_times; auto using fine_num. Qed.
Lemma fine_emul k A A' : (forall i j, fine (A i j)) -> (forall i j, fine (A' i j)) -> forall i j, fine (emul k A A' i j).
Proof. intros H H' i j. apply fine_esum. intros. now apply fine_times. Qed.
Lemma fine_rot_x e : fine e -> forall i j, fine (rot_x e i j).
Proof. intros H i j. unfold rot_x. destruct i as [|[|[|i]]]; (destruct j as [|[|[|j]]]); auto using fine_num, fine_cos, fine_sin, fine_neg. Qed.
Lemma fine_rot_z e : fine e -> forall i j, fine (rot_z e i j).
Proof. intros H i j. unfold rot_z. destruct i as [|[|[|i]]]; (destruct j as [|[|[|j]]]); auto using fine_num, fine_cos, fine_sin, fine_neg. Qed.
Lemma fine_steady e : steady e -> fine e.
Proof. intros H. split; [now apply steady_position | apply H]. Qed.
Definition gam (k : nat) : expr := joint k (nth k reps no_replace).
Lemma fine_joint k : (k < n)%nat -> fine (gam k).
Proof. intros Hk. destruct (HS k Hk) as (_ & _ & _ & _ & _ & _ & H & H'). split; auto. Qed.
Lemma fine_F k : (k <= n)%nat -> forall i j, fine (fr_R (F k) i j).
Proof.
  induction k; intros Hk.
  - rewrite F_0. intros i j. cbn [inertial fr_R]. destruct (i =? j)%nat; apply fine_num.
  - rewrite F_S by lia. unfold turned, orient_z, orient_x. cbn [fr_R].
    destruct (HS k Hk) as (T & A & _). 
    repeat (apply fine_emul); auto using fine_rot_x, fine_rot_z, fine_steady, fine_joint.
    + apply IHk. lia.
    + apply fine_rot_z. apply (fine_joint k Hk).
Qed.
Lemma fine_N1 k i j : (k < n)%nat -> fine (fr_R (orient_z (orient_x (F k) (at_link links reps p_alpha k)) (at_link links reps p_theta k)) i j).
Proof.
  intros Hk. destruct (HS k Hk) as (T & A & _). unfold orient_z, orient_x. cbn [fr_R].
  repeat (apply fine_emul); auto using fine_rot_x, fine_rot_z, fine_steady. apply fine_F. lia.
Qed.
Lemma fine_P k : (k <= n)%nat -> forall i, fine (P k i).
Proof.
  induction k; intros Hk i.
  - rewrite P_0. apply fine_num.
  - rewrite P_S by lia. unfold moved. destruct (HS k Hk) as (T & A & D & AA & _).
    apply fine_plus; [apply IHk; lia|]. apply fine_plus; apply fine_times; auto using fine_steady.
    + apply fine_N1. exact Hk.
    + apply fine_F. lia.
Qed.
Lemma fine_cm k i : (k < n)%nat -> fine (bo_cm (nth_body bs k) i).
Proof.
  intros Hk. rewrite body_k by auto. cbn [body_of bo_cm]. destruct (HS k Hk) as (T & A & D & AA & MM & R & _).
  apply fine_plus; [apply fine_P; lia|]. unfold arr_to_vect.
  apply fine_plus; [apply fine_plus|]; apply fine_times; first [apply fine_steady, R; lia | apply fine_F; lia].
Qed.
Lemma fine_m k : (k < n)%nat -> fine (bo_m (nth_body bs k)).
Proof. intros Hk. rewrite body_k by auto. apply fine_steady. apply (HS k Hk). Qed.
Lemma fine_V k : (k < n)%nat -> fine (bo_V (nth_body bs k)).
Proof.
  intros Hk. pose proof (fine_cm k 2%nat Hk) as H. pose proof (fine_m k Hk) as H'. rewrite body_k in * by auto. cbn [body_of bo_V bo_cm bo_m] in *.
  apply fine_times; [apply fine_times; auto using fine_num | auto].
Qed.

(** ** Angular velocities *)
Lemma ddt_steady rho e : steady e -> eval rho (ddt e) = 0.
Proof. intros [H _]. rewrite eval_ddt. apply tangent_none. intros a Ha. destruct (H a Ha) as [m ->]. reflexivity. Qed.
Lemma diff_ddt_position rho j e : up_to 0 e -> eval rho (diff (qd qs 1 j) (ddt e)) = eval rho (diff (qd qs 0 j) e).
Proof.
  induction e as [r | b | e1 IH1 e2 IH2 | e1 IH1 e2 IH2 | f k e IH]; intros Hu.
  - reflexivity.
  - destruct b as [nm | nm l]; cbn [ddt diff].
    + destruct (atom_eq_dec (Static nm) (qd qs 0 j)) as [E|]; [discriminate | reflexivity].
    + unfold qd. destruct (atom_eq_dec (Dyn nm (S l)) (Dyn (nth j qs ""%string) 1)) as [E|E];
        destruct (atom_eq_dec (Dyn nm l) (Dyn (nth j qs ""%string) 0)) as [E'|E']; try reflexivity; exfalso.
      * inversion E; subst. now apply E'.
      * inversion E'; subst. now apply E.
  - cbn [ddt diff eval]. rewrite IH1, IH2; [reflexivity | |]; intros nm l Hl; apply (Hu nm l); cbn; rewrite in_app_iff; auto.
  - assert (U1 : up_to 0 e1) by (intros nm l Hl; apply (Hu nm l); cbn; rewrite in_app_iff; auto).
    assert (U2 : up_to 0 e2) by (intros nm l Hl; apply (Hu nm l); cbn; rewrite in_app_iff; auto).
    cbn [ddt diff eval]. rewrite IH1, IH2 by auto.
    rewrite (diff_none rho (qd qs 1 j) e1), (diff_none rho (qd qs 1 j) e2) by (intros X; first [apply U1 in X | apply U2 in X]; lia). ring.
  - assert (U1 : up_to 0 e) by (intros nm l Hl; apply (Hu nm l); auto).
    cbn [ddt diff eval]. rewrite IH by auto.
    rewrite (diff_none rho (qd qs 1 j) e) by (intros X; apply U1 in X; lia). ring.
Qed.
Lemma axis_same rho k i : (k < n)%nat ->
  eval rho (fr_R (orient_z (orient_x (F k) (at_link links reps p_alpha k)) (at_link links reps p_theta k)) i 2%nat) = eval rho (fr_R (F (S k)) i 2%nat).
Proof.
  intros Hk. rewrite F_S by auto.
  change (ev rho (fr_R (orient_z (orient_x (F k) (at_link links reps p_alpha k)) (at_link links reps p_theta k))) i 2%nat =
          ev rho (fr_R (orient_z (orient_z (orient_x (F k) (at_link links reps p_alpha k)) (at_link links reps p_theta k)) (joint k (nth k reps no_replace)))) i 2%nat).
  rewrite (orient_z_R rho (orient_z _ _)). reflexivity.
Qed.
Lemma w_step rho k i : (k < n)%nat ->
  eval rho (fr_w (F (S k)) i) = eval rho (fr_w (F k) i) + eval rho (ddt (gam k)) * eval rho (fr_R (F (S k)) i 2%nat).
Proof.
  intros Hk. rewrite <- (axis_same rho k i Hk). rewrite F_S by auto. unfold turned. cbn [orient_z orient_x fr_w eval].
  destruct (HS k Hk) as (T & A & _). rewrite (ddt_steady _ _ T), (ddt_steady _ _ A). unfold gam, at_link. cbn [orient_z orient_x fr_R]. ring.
Qed.
Lemma w_sum rho k i : (k <= n)%nat ->
  eval rho (fr_w (F k) i) = rsum k (fun l => eval rho (ddt (gam l)) * eval rho (fr_R (F (S l)) i 2%nat)).
Proof.
  induction k; intros Hk; [now rewrite F_0|]. rewrite w_step by lia. cbn [rsum]. now rewrite IHk by lia.
Qed.
Lemma diff_steady_ddt rho j e : steady e -> eval rho (diff (qd qs 1 j) (ddt e)) = 0.
Proof.
  intros [H _]. rewrite diff_ddt_position.
  - apply diff_none. intros X. destruct (H _ X) as [m E]. discriminate.
  - intros nm l X. destruct (H _ X) as [m E]. discriminate.
Qed.
Lemma fine_up_to e : fine e -> up_to 0 e.
Proof. intros [H _]. eapply position_up_to, H. Qed.
Lemma diff_fine rho j e : fine e -> eval rho (diff (qd qs 1 j) e) = 0.
Proof. intros [H _]. rewrite eval_diff. now apply position_tangent. Qed.
Lemma dw_step rho j k i : (k < n)%nat ->
  eval rho (diff (qd qs 1 j) (fr_w (F (S k)) i)) =
  eval rho (diff (qd qs 1 j) (fr_w (F k) i)) + eval rho (diff (qd qs 0 j) (gam k)) * eval rho (fr_R (F (S k)) i 2%nat).
Proof.
  intros Hk. rewrite <- (axis_same rho k i Hk). pose proof (fine_N1 k i 2%nat Hk) as FN. pose proof (fine_joint k Hk) as FJ.
  rewrite F_S by auto.
  destruct (HS k Hk) as (T & A & _).
  set (N1 := orient_z (orient_x (F k) (at_link links reps p_alpha k)) (at_link links reps p_theta k)) in *.
  change (fr_w (turned (F k) (nth k links no_link) (nth k reps no_replace) (joint k (nth k reps no_replace))) i)
    with (Plus (Plus (Plus (fr_w (F k) i) (Times (ddt (at_link links reps p_alpha k)) (fr_R (F k) i 0%nat)))
                     (Times (ddt (at_link links reps p_theta k)) (fr_R (orient_x (F k) (at_link links reps p_alpha k)) i 2%nat)))
               (Times (ddt (gam k)) (fr_R N1 i 2%nat))).
  cbn [diff eval]. rewrite (diff_ddt_position rho j (gam k)) by (apply fine_up_to; exact FJ).
  rewrite (diff_fine rho j _ FN).
  unfold at_link at 1 2 3 4 5 6. rewrite !(diff_steady_ddt rho j) by assumption. rewrite !(ddt_steady rho) by assumption. ring.
Qed.
Lemma dw_sum rho j k i : (k <= n)%nat ->
  eval rho (diff (qd qs 1 j) (fr_w (F k) i)) = rsum k (fun l => eval rho (diff (qd qs 0 j) (gam l)) * eval rho (fr_R (F (S l)) i 2%nat)).
Proof.
  induction k; intros Hk; [rewrite F_0; reflexivity|]. rewrite dw_step by lia. cbn [rsum]. now rewrite IHk by lia.
Qed.
Lemma w_level k : (k <= n)%nat -> forall i, up_to 1 (fr_w (F k) i) /\ forall rho, smooth_at rho (fr_w (F k) i).
Proof.
  induction k; intros Hk i.
  - rewrite F_0. split; [intros ? ? [] | intros; exact I].
  - destruct (IHk ltac:(lia) i) as [U Sm]. pose proof (fine_N1 k i 2%nat Hk) as FN. pose proof (fine_joint k Hk) as FJ.
    pose proof (fine_F k ltac:(lia) i 0%nat) as FF.
    destruct (HS k Hk) as (T & A & _). apply fine_steady in T, A.
    assert (FX : fine (fr_R (orient_x (F k) (at_link links reps p_alpha k)) i 2%nat)).
    { unfold orient_x. cbn [fr_R]. apply fine_emul; [intros; apply fine_F; lia | now apply fine_rot_x]. }
    rewrite F_S by auto.
    set (N1 := orient_z (orient_x (F k) (at_link links reps p_alpha k)) (at_link links reps p_theta k)) in *.
    change (fr_w (turned (F k) (nth k links no_link) (nth k reps no_replace) (joint k (nth k reps no_replace))) i)
    with (Plus (Plus (Plus (fr_w (F k) i) (Times (ddt (at_link links reps p_alpha k)) (fr_R (F k) i 0%nat)))
                     (Times (ddt (at_link links reps p_theta k)) (fr_R (orient_x (F k) (at_link links reps p_alpha k)) i 2%nat)))
               (Times (ddt (gam k)) (fr_R N1 i 2%nat))).
    assert (L : forall e, fine e -> up_to 1 (ddt e)) by (intros e He; apply up_to_ddt, fine_up_to, He).
    assert (L' : forall e, fine e -> up_to 1 e) by (intros e He nm l X; apply (fine_up_to e He) in X; lia).
    split.
    + intros nm l X. cbn [atoms] in X. rewrite !in_app_iff in X.
      destruct X as [[[X|[X|X]]|[X|X]]|[X|X]]; revert X; [apply U | apply L | apply L' | apply L | apply L' | apply L | apply L']; assumption.
    + intros rho. cbn [smooth_at]. 
      split; [split; [split; [apply Sm | split; [apply smooth_ddt, A | apply FF]] | split; [apply smooth_ddt, T | apply FX]] | split; [apply smooth_ddt, FJ | apply FN]].
Qed.

(** ** Torques *)
Definition zd (rho : env) (k : nat) : nat -> R := fun i => eval rho (fr_R (F (S k)) i 2%nat).
Lemma zd_unit rho k : (k < n)%nat -> dot3 (zd rho k) (zd rho k) = 1.
Proof. intros Hk. destruct (frames_spin rho (S k) ltac:(lia)) as [[H _] _]. exact (H 2%nat 2%nat ltac:(lia) ltac:(lia)). Qed.
Lemma fold_force rho (fl : list (frame * evec)) x e0 :
  eval rho (fold_left (fun s ft => Plus s (edot (fun i => diff x (fr_w (fst ft) i)) (snd ft))) fl e0) =
  eval rho e0 + rsum (length fl) (fun a => let ft := nth a fl (inertial, fun _ => Num 0) in dot3 (fun i => eval rho (diff x (fr_w (fst ft) i))) (evv rho (snd ft))).
Proof.
  revert e0. induction fl as [|ft fl IH]; intros e0; [cbn; ring|]. cbn [fold_left]. rewrite IH. cbn [length]. rewrite rsum_S_l. cbn [nth eval].
  unfold edot. rewrite eval_esum. unfold dot3, evv. cbn [eval]. ring.
Qed.
Lemma force_list_value rho x : let u k := rho (u_symb k) in let O k := fun i => eval rho (diff x (fr_w (F (S k)) i)) in
  eval rho (generalised_force (force_list bs) x) =
  rsum n (fun k => u k * dot3 (O k) (zd rho k)) + rsum (n - 1) (fun k => - u (k + 1)%nat * dot3 (O k) (zd rho (k + 1))).
Proof.
  intros u O. unfold generalised_force. rewrite fold_force. cbn [eval]. rewrite Rplus_0_l. unfold force_list. rewrite length_bs. rewrite app_length, !map_length, !seq_length.
  rewrite rsum_split. f_equal.
  - apply rsum_ext. intros k Hk. cbv zeta. rewrite app_nth1 by (now rewrite map_length, seq_length).
    rewrite nth_map_seq by auto. cbn [fst snd]. unfold axis_z. rewrite body_k by auto. cbn [body_of bo_frame].
    unfold dot3, evv, O, u, zd. rewrite <- rsum_scal. apply rsum_ext. intros i _. cbn [eval]. ring.
  - apply rsum_ext. intros k Hk. cbv zeta. rewrite app_nth2 by (rewrite map_length, seq_length; lia). rewrite map_length, seq_length.
    replace (n + k - n)%nat with k by lia. rewrite nth_map_seq by auto. cbn [fst snd]. unfold axis_z. rewrite !body_k by (unfold n in *; lia). cbn [body_of bo_frame].
    unfold dot3, evv, O, u, zd. rewrite <- rsum_scal. apply rsum_ext. intros i _. cbn [eval Neg]. unfold Neg. cbn [eval]. ring.
Qed.
Lemma telescope_torques N (u : nat -> R) (O z : nat -> nat -> R) (c : nat -> R) :
  (forall i, O 0%nat i = c 0%nat * z 0%nat i) -> (forall k i, (S k < N)%nat -> O (S k) i = O k i + c (S k) * z (S k) i) -> (forall k, (k < N)%nat -> dot3 (z k) (z k) = 1) ->
  rsum N (fun k => u k * dot3 (O k) (z k)) + rsum (N - 1) (fun k => - u (k + 1)%nat * dot3 (O k) (z (k + 1)%nat)) = rsum N (fun k => u k * c k).
Proof.
  intros H0 HS' Hz. destruct N as [|N]; [cbn; ring|]. replace (S N - 1)%nat with N by lia. rewrite !rsum_S_l.
  assert (E0 : dot3 (O 0%nat) (z 0%nat) = c 0%nat).
  { transitivity (c 0%nat * dot3 (z 0%nat) (z 0%nat)); [|rewrite Hz by lia; ring]. unfold dot3. cbn [rsum]. rewrite !H0. ring. }
  rewrite E0. rewrite Rplus_assoc. f_equal. rewrite <- rsum_plus. apply rsum_ext. intros k Hk. rewrite !Nat.add_1_r.
  assert (E1 : dot3 (O (S k)) (z (S k)) = dot3 (O k) (z (S k)) + c (S k)).
  { transitivity (dot3 (O k) (z (S k)) + c (S k) * dot3 (z (S k)) (z (S k))); [|rewrite Hz by lia; ring]. unfold dot3. cbn [rsum]. rewrite !HS' by lia. ring. }
  rewrite E1. ring.
Qed.
Lemma torque_value rho j : eval rho (generalised_force (force_list bs) (qd qs 1 j)) = rsum n (fun k => rho (u_symb k) * eval rho (diff (qd qs 0 j) (gam k))).
Proof.
  rewrite force_list_value. cbv zeta. destruct (Nat.eq_dec n 0) as [Z|Z]; [rewrite Z; cbn; ring|].
  apply (telescope_torques n (fun k => rho (u_symb k)) (fun k i => eval rho (diff (qd qs 1 j) (fr_w (F (S k)) i))) (zd rho) (fun k => eval rho (diff (qd qs 0 j) (gam k)))).
  - intros i. rewrite dw_sum by lia. cbn [rsum]. rewrite Rplus_0_l. reflexivity.
  - intros k i Hk. rewrite (dw_step rho j (S k)) by lia. reflexivity.
  - intros k Hk. now apply zd_unit.
Qed.
(** Total torque of the list: that of the first motor on the first body. *)
Lemma torque_sum rho i :
  fold_right (fun ft s => evv rho (snd ft) i + s) 0 (force_list bs) = if (n =? 0)%nat then 0 else rho (u_symb 0) * zd rho 0 i.
Proof.
  unfold force_list. rewrite fold_right_app, length_bs.
  assert (E : forall k (f : nat -> frame * evec) x, fold_right (fun ft s => evv rho (snd ft) i + s) x (map f (seq 0 k)) = rsum k (fun a => evv rho (snd (f a)) i) + x).
  { clear. intros k. induction k; intros f x; [cbn; ring|]. rewrite seq_S, map_app, fold_right_app. cbn [map fold_right rsum Nat.add]. rewrite IHk. ring. }
  rewrite !E, Rplus_0_r.
  rewrite (rsum_ext n _ (fun k => rho (u_symb k) * zd rho k i)).
  2:{ intros k Hk. cbn [snd]. unfold evv, axis_z. rewrite body_k by auto. reflexivity. }
  rewrite (rsum_ext (n - 1) _ (fun k => - (rho (u_symb (S k)) * zd rho (S k) i))).
  2:{ intros k Hk. cbn [snd]. unfold evv, axis_z. rewrite body_k by (unfold n in *; lia). rewrite Nat.add_1_r. unfold Neg. cbn [eval body_of bo_frame]. unfold zd. ring. }
  destruct n as [|N]; [cbn; ring|]. cbn [Nat.eqb]. replace (S N - 1)%nat with N by lia. rewrite rsum_S_l.
  rewrite (rsum_ext N (fun k => - _) (fun k => (-1) * (rho (u_symb (S k)) * zd rho (S k) i))) by (intros; ring). rewrite rsum_scal. ring.
Qed.
End Robot.
