From Coq Require Import String.
From Verif Require Import Prelude PreludeFacts Mat Poly PwModel PwSpec PwFacts PwSchemeProofs PwMotionProofs PwDynProofs PwProps PsModel CostModel EquiModel EquiSpec.
Open Scope string_scope.
Open Scope list_scope.
Open Scope R_scope.

Lemma row_zero_iff r : (fst (row_zero r) = snd (row_zero r)) <-> vzero r.
Proof.
  cbn. unfold vzero. induction r as [|x r IH]; cbn; [split; [constructor|reflexivity]|]. split.
  - intros [= -> E]. constructor; [reflexivity|]. apply IH. exact E.
  - intros H. inversion H; subst. f_equal. apply IH. assumption.
Qed.
Lemma sat_map (f : nat -> row_constr) s n : rows_satisfied (map f (seq s n)) <-> forall i, (s <= i < s + n)%nat -> fst (f i) = snd (f i).
Proof.
  unfold rows_satisfied. rewrite Forall_map, Forall_forall. split; intros H i; [intros L; apply H, in_seq; lia|].
  intros I. apply in_seq in I. apply H. lia.
Qed.
Lemma sat_app a b : rows_satisfied (a ++ b) <-> rows_satisfied a /\ rows_satisfied b.
Proof. apply Forall_app. Qed.
Lemma sat_flat (f : nat -> list row_constr) s n : rows_satisfied (flat_map f (seq s n)) <-> forall i, (s <= i < s + n)%nat -> rows_satisfied (f i).
Proof.
  unfold rows_satisfied. rewrite Forall_flat_map, Forall_forall. split; intros H i; [intros L; apply H, in_seq; lia|].
  intros I. apply in_seq in I. apply H. lia.
Qed.

Lemma lastn_accel n M r : (0 < n)%nat -> length r = (M * n)%nat -> (0 < M)%nat -> lastn n r = accel n r.
Proof. intros H L P. unfold lastn, accel. destruct (Nat.eqb_spec n 0); [lia|reflexivity]. Qed.
Lemma mrow_len rows m A i : shaped rows m A -> (i < rows)%nat -> length (mrow i A) = m.
Proof.
  intros [L F] H. rewrite Forall_forall in F. apply F. unfold mrow. apply nth_In. lia.
Qed.
Lemma highest_row n M rows A i : (0 < n)%nat -> (0 < M)%nat -> shaped rows (M * n) A -> (i < rows)%nat -> mrow i (highest n A) = accel n (mrow i A).
Proof.
  intros Hn HM S H. unfold highest, mrow. destruct S as [L F].
  rewrite nth_indep with (d' := lastn n []) by (rewrite map_length; lia). rewrite map_nth. apply (lastn_accel n M); try assumption.
  rewrite Forall_forall in F. apply F, nth_In. lia.
Qed.
Lemma acc_length n M r : (0 < M)%nat -> length r = (M * n)%nat -> length (accel n r) = n.
Proof. intros HM L. unfold accel. rewrite skipn_length, L. destruct M; [lia|]. cbn. lia. Qed.

Lemma vec_coord M n a b : length a = (M * n)%nat -> length b = (M * n)%nat ->
  (a = b <-> forall k j, (k < M)%nat -> (j < n)%nat -> coord n a k j = coord n b k j).
Proof.
  intros La Lb. split; [intros -> ; reflexivity|]. intros H. apply vec_ext; [congruence|].
  intros i Hi. rewrite La in Hi. assert (n <> 0)%nat by lia. pose proof (Nat.div_mod i n H0) as E. specialize (H (i / n)%nat (i mod n)%nat).
  unfold coord in H. replace (i / n * n + i mod n)%nat with i in H by lia. apply H.
  - apply Nat.div_lt_upper_bound; lia.
  - apply Nat.mod_upper_bound. assumption.
Qed.

(** one step: restriction and motions *)
Lemma step_trapz M n h x x_n a a_n : (0 < M)%nat -> h <> 0 -> length x = (M * n)%nat -> length x_n = (M * n)%nat ->
  length a = n -> length a_n = n ->
  (vzero (trapz_m_accel_restr M x x_n a a_n h) <->
   forall j, (j < n)%nat -> exists c, tz_motion M n h x a a_n j c /\ passes_at M n c h x_n j).
Proof.
  intros HM Hh Hx Hxn Ha Han. split.
  - intros Z j Hj. destruct (choose_motions n (fun j c => tz_motion M n h x a a_n j c)) as [c Hc].
    { intros k. apply tz_motion_exists; assumption. }
    exists (c j). split; [apply Hc; exact Hj|].
    exact (proj1 (trapz_m_arrives M n HM h Hh x x_n a a_n Hx Hxn Ha Han c Hc) Z j Hj).
  - intros H. destruct (choose_motions n (fun j c => (j < n)%nat -> tz_motion M n h x a a_n j c /\ passes_at M n c h x_n j)) as [c Hc].
    { intros j. destruct (lt_dec j n) as [L|L]; [destruct (H j L) as [c C]; exists c; auto|exists []; intros; contradiction]. }
    apply (proj2 (trapz_m_arrives M n HM h Hh x x_n a a_n Hx Hxn Ha Han c (fun j L => proj1 (Hc j L L)))).
    intros j L. exact (proj2 (Hc j L L)).
Qed.

Lemma step_hs M n h x x_n x_c a a_n a_c : (0 < M)%nat -> (0 < n)%nat -> h <> 0 -> length x = (M * n)%nat -> length x_n = (M * n)%nat ->
  length x_c = (M * n)%nat -> length (hs_m_half_x M x x_n a a_n h) = (M * n)%nat -> length a = n -> length a_n = n -> length a_c = n ->
  (vzero (hs_m_accel_restr M x x_n a a_n h a_c) /\ x_c = hs_m_half_x M x x_n a a_n h <->
   forall j, (j < n)%nat -> exists c, hs_motion M n h x a a_c a_n j c /\ passes_at M n c (h / 2) x_c j /\ passes_at M n c h x_n j).
Proof.
  intros HM Hn Hh Hx Hxn Hxc Hhl Ha Han Hac. split.
  - intros [Z E] j Hj. destruct (choose_motions n (fun j c => hs_motion M n h x a a_c a_n j c)) as [c Hc].
    { intros k. apply hs_motion_exists; assumption. }
    pose proof (proj1 (hs_m_arrives M n HM h Hh x x_n a a_n Hx Hxn Ha Han a_c Hac c Hc) Z j Hj) as P.
    exists (c j). split; [apply Hc; exact Hj|]. split; [|exact P].
    intros k Hk. rewrite E. symmetry. apply (hs_m_half_value M n HM h Hh x x_n a a_n Hx Hxn Ha Han a_c Hac (c j)); auto.
    apply P. lia.
  - intros H. destruct (choose_motions n (fun j c => (j < n)%nat -> hs_motion M n h x a a_c a_n j c /\ passes_at M n c (h / 2) x_c j /\ passes_at M n c h x_n j)) as [c Hc].
    { intros j. destruct (lt_dec j n) as [L|L]; [destruct (H j L) as [c C]; exists c; auto|exists []; intros; contradiction]. }
    split.
    + apply (proj2 (hs_m_arrives M n HM h Hh x x_n a a_n Hx Hxn Ha Han a_c Hac c (fun j L => proj1 (Hc j L L)))).
      intros j L. exact (proj2 (proj2 (Hc j L L))).
    + apply (vec_coord M n); [exact Hxc|exact Hhl|]. intros k j Hk Hj. destruct (Hc j Hj Hj) as [A [B C]].
      rewrite <- (B k Hk). symmetry. apply (hs_m_half_value M n HM h Hh x x_n a a_n Hx Hxn Ha Han a_c Hac (c j)); auto.
      apply C. lia.
Qed.

Lemma step_hsj n h x x_n x_c a a_n a_c : h <> 0 -> length x = (2 * n)%nat -> length x_n = (2 * n)%nat ->
  length x_c = (2 * n)%nat -> length (hsj_half_x x x_n a a_n h) = (2 * n)%nat -> length a = n -> length a_n = n -> length a_c = n ->
  (vzero (hsj_accel_restr x x_n a a_n h a_c) /\ x_c = hsj_half_x x x_n a a_n h <->
   forall j, (j < n)%nat -> exists c, hsj_motion n h x a a_c a_n j c /\ passes_at 2 n c (2 * h / 5) x_c j /\ passes_at 2 n c h x_n j).
Proof.
  intros Hh Hx Hxn Hxc Hhl Ha Han Hac. split.
  - intros [Z E] j Hj. destruct (choose_motions n (fun j c => hsj_motion n h x a a_c a_n j c)) as [c Hc].
    { intros k. apply hsj_motion_exists; assumption. }
    pose proof (proj1 (hsj_arrives n h x x_n a a_n a_c c Hh Hx Hxn Ha Han Hac Hc) Z j Hj) as P.
    exists (c j). split; [apply Hc; exact Hj|]. split; [|exact P].
    intros k Hk. rewrite E. symmetry. apply (hsj_half_value n h Hh x x_n Hx Hxn a a_n a_c Ha Han Hac (c j)); auto.
  - intros H. destruct (choose_motions n (fun j c => (j < n)%nat -> hsj_motion n h x a a_c a_n j c /\ passes_at 2 n c (2 * h / 5) x_c j /\ passes_at 2 n c h x_n j)) as [c Hc].
    { intros j. destruct (lt_dec j n) as [L|L]; [destruct (H j L) as [c C]; exists c; auto|exists []; intros; contradiction]. }
    split.
    + apply (proj2 (hsj_arrives n h x x_n a a_n a_c c Hh Hx Hxn Ha Han Hac (fun j L => proj1 (Hc j L L)))).
      intros j L. exact (proj2 (proj2 (Hc j L L))).
    + apply (vec_coord 2 n); [exact Hxc|exact Hhl|]. intros k j Hk Hj. destruct (Hc j Hj Hj) as [A [B C]].
      rewrite <- (B k Hk). symmetry. apply (hsj_half_value n h Hh x x_n Hx Hxn a a_n a_c Ha Han Hac (c j)); auto.
Qed.

(** first-order forms: the state derivative rebuilt by the restriction is the
    given one *)
Lemma kin_split M n x xd : (0 < M)%nat -> length x = (M * n)%nat -> length xd = (M * n)%nat -> firstn ((M - 1) * n) xd = skipn n x ->
  skipn n x ++ accel n xd = xd.
Proof.
  intros HM Hx Hxd K. rewrite <- K. unfold accel. rewrite Hxd.
  replace (M * n - n)%nat with ((M - 1) * n)%nat by (destruct M; [lia|]; cbn; rewrite Nat.sub_0_r; lia). apply firstn_skipn.
Qed.
Lemma dim_accel M n x a : (0 < M)%nat -> (0 < n)%nat -> length x = (M * n)%nat -> length a = n ->
  (vec_len x / order_from_x_a x a = n)%nat.
Proof.
  intros HM Hn Hx Ha. unfold order_from_x_a, vec_len. rewrite Hx, Ha, Nat.div_mul by lia.
  rewrite Nat.mul_comm, Nat.div_mul by lia. reflexivity.
Qed.
Section First.
Context (M n : nat) (HM : (0 < M)%nat) (Hn : (0 < n)%nat) (x x_n xd xdn : vec) (h : R).
Hypothesis Hx : length x = (M * n)%nat.
Hypothesis Hxn : length x_n = (M * n)%nat.
Hypothesis Hxd : length xd = (M * n)%nat.
Hypothesis Hxdn : length xdn = (M * n)%nat.
Hypothesis K : firstn ((M - 1) * n) xd = skipn n x.
Hypothesis Kn : firstn ((M - 1) * n) xdn = skipn n x_n.
Let n_le : (n <= M * n)%nat.
Proof. destruct M; [lia|]. cbn. lia. Qed.
Let N0 : (0 < M * n)%nat.
Proof. apply Nat.mul_pos_pos; assumption. Qed.

Lemma xd_of y yd : length y = (M * n)%nat -> length yd = (M * n)%nat -> firstn ((M - 1) * n) yd = skipn n y ->
  x_dot_of n x y (accel n yd) = yd.
Proof.
  intros Hy Hyd Ky. rewrite x_dot_of_eq.
  - apply (kin_split M); assumption.
  - congruence.
  - apply (acc_length n M); assumption.
  - rewrite Hx. exact n_le.
Qed.
Lemma xd1_of y yd : length y = (M * n)%nat -> length yd = (M * n)%nat -> x_dot_of (M * n) x y yd = yd.
Proof. intros Hy Hyd. rewrite x_dot_of_eq by (try congruence; lia). rewrite skipn_all2 by lia. reflexivity. Qed.
Let dimn y yd : length y = (M * n)%nat -> length yd = (M * n)%nat -> (vec_len y / order_from_x_a y (accel n yd) = n)%nat.
Proof. intros Hy Hyd. apply (dim_accel M); try assumption. apply (acc_length n M); assumption. Qed.
Let dim1 y yd : length y = (M * n)%nat -> length yd = (M * n)%nat -> (vec_len y / order_from_x_a y yd = M * n)%nat.
Proof. intros Hy Hyd. apply (dim_accel 1); try assumption; lia. Qed.

Lemma trapz_first : trapz_accel_restr x x_n (accel n xd) (accel n xdn) h = trapz_m_accel_restr 1 x x_n xd xdn h.
Proof.
  rewrite <- (trapz_1 (M * n) N0) by assumption. unfold trapz_accel_restr.
  rewrite (dimn x xd), (dim1 x xd), !xd_of, !xd1_of by assumption. reflexivity.
Qed.
Lemma hs_half_first : hs_half_x x x_n (accel n xd) (accel n xdn) h = hs_m_half_x 1 x x_n xd xdn h.
Proof.
  rewrite <- (hs_half_1 (M * n) N0) by assumption. unfold hs_half_x.
  rewrite (dimn x xd), (dim1 x xd), !xd_of, !xd1_of by assumption. reflexivity.
Qed.
Lemma hs_first x_c xdc : x_c = hs_m_half_x 1 x x_n xd xdn h -> length xdc = (M * n)%nat -> firstn ((M - 1) * n) xdc = skipn n x_c ->
  hs_accel_restr x x_n (accel n xd) (accel n xdn) h (accel n xdc) = hs_m_accel_restr 1 x x_n xd xdn h xdc.
Proof.
  intros E Hxdc Kc. rewrite <- (hs_1 (M * n) N0) by assumption.
  assert (Lc : length x_c = (M * n)%nat). { rewrite E. rewrite <- (Nat.mul_1_l (M * n)). apply hs_m_half_length; try assumption; lia. }
  unfold hs_accel_restr. rewrite hs_half_first. rewrite (hs_half_1 (M * n) N0) by assumption. rewrite <- E.
  rewrite (dimn x xd), (dim1 x xd) by assumption.
  rewrite !xd_of, !xd1_of by assumption. reflexivity.
Qed.
End First.

Section Apply.
Context (dyn : vec -> vec -> vec -> vec -> vec -> vec) (M n n_u N : nat) (t_start t_end : R) (p : vec) (v : eq_values).
Hypothesis HM : (0 < M)%nat.
Hypothesis Hn : (0 < n)%nat.
Hypothesis HN : (0 < N)%nat.
Hypothesis Ht : t_start <> t_end.
Hypothesis Hs : eq_sizes M n n_u N v.
Let h := (t_end - t_start) / INR N.
Let Hh : h <> 0.
Proof. unfold h. apply Rmult_integral_contrapositive_currified; [lra|]. apply Rinv_neq_0_compat, not_0_INR. lia. Qed.

Let xlen i : (i <= N)%nat -> length (mrow i (ev_x v)) = (M * n)%nat.
Proof. intros H. apply (mrow_len (N + 1)); [apply Hs|lia]. Qed.
Let dlen i : (i <= N)%nat -> length (mrow i (ev_x_d v)) = (M * n)%nat.
Proof. intros H. apply (mrow_len (N + 1)); [apply Hs|lia]. Qed.
Let clen i : (i < N)%nat -> length (mrow i (ev_x_c v)) = (M * n)%nat.
Proof. intros H. apply (mrow_len N); [apply Hs|lia]. Qed.
Let cdlen i : (i < N)%nat -> length (mrow i (ev_x_d_c v)) = (M * n)%nat.
Proof. intros H. apply (mrow_len N); [apply Hs|lia]. Qed.
Let hrow i : (i <= N)%nat -> mrow i (highest n (ev_x_d v)) = accel n (mrow i (ev_x_d v)).
Proof. intros H. apply (highest_row n M (N + 1)); try assumption; [apply Hs|lia]. Qed.
Let hcrow i : (i < N)%nat -> mrow i (highest n (ev_x_d_c v)) = accel n (mrow i (ev_x_d_c v)).
Proof. intros H. apply (highest_row n M N); try assumption. apply Hs. Qed.
Let alen i : (i <= N)%nat -> length (accel n (mrow i (ev_x_d v))) = n.
Proof. intros H. apply (acc_length n M); auto. Qed.
Let aclen i : (i < N)%nat -> length (accel n (mrow i (ev_x_d_c v))) = n.
Proof. intros H. apply (acc_length n M); auto. Qed.

(** the constraints, one by one *)
Lemma no_hs scheme f : sub_in "hs" scheme = false -> restr_schemes scheme M = Some f ->
  exists cs, eq_apply_scheme dyn scheme M n N t_start t_end p v = Ok cs /\
  (rows_satisfied cs <->
   at_nodes dyn N p v /\
   forall i, (i < N)%nat -> vzero (f (mrow i (ev_x v)) (mrow (i + 1) (ev_x v)) (accel n (mrow i (ev_x_d v)))
                                    (accel n (mrow (i + 1) (ev_x_d v))) h [])).
Proof.
  intros H E. unfold eq_apply_scheme. rewrite E, H. eexists. split; [reflexivity|].
  rewrite !sat_app, !sat_map. split.
  - intros [A [B _]]. split.
    + intros i Hi. apply row_zero_iff, B. lia.
    + intros i Hi. specialize (A i ltac:(lia)). apply row_zero_iff in A. rewrite !hrow in A by lia. exact A.
  - intros [B A]. split; [|split; [|constructor]].
    + intros i Hi. apply row_zero_iff. rewrite !hrow by lia. apply A. lia.
    + intros i Hi. apply row_zero_iff, B. lia.
Qed.

Definition controls_of (scheme : string) : Prop :=
  if sub_in "parab" scheme then True
  else affine_controls (if sub_in "j" scheme then 2 / 5 else 1 / 2) n_u N v.

Lemma with_hs scheme f : sub_in "hs" scheme = true -> restr_schemes scheme M = Some f ->
  exists cs, eq_apply_scheme dyn scheme M n N t_start t_end p v = Ok cs /\
  (rows_satisfied cs <->
   at_nodes dyn N p v /\ at_middles dyn N p v /\
   (forall i, (i < N)%nat ->
      vzero (f (mrow i (ev_x v)) (mrow (i + 1) (ev_x v)) (accel n (mrow i (ev_x_d v)))
                (accel n (mrow (i + 1) (ev_x_d v))) h (accel n (mrow i (ev_x_d_c v)))) /\
      mrow i (ev_x_c v) = half_x_of scheme M (mrow i (ev_x v)) (mrow (i + 1) (ev_x v)) (accel n (mrow i (ev_x_d v)))
                (accel n (mrow (i + 1) (ev_x_d v))) h) /\
   controls_of scheme).
Proof.
  intros H E. unfold eq_apply_scheme. rewrite E, H. eexists. split; [reflexivity|].
  rewrite !sat_app, !sat_map, sat_flat.
  assert (C : rows_satisfied (if sub_in "parab" scheme then []
                  else if sub_in "j" scheme then
                    map (fun ii => (mrow ii (ev_u_c v), vadd (vscale 0.6 (mrow ii (ev_u v))) (vscale 0.4 (mrow (ii + 1) (ev_u v)))))
                      (seq 0 N)
                  else map (fun ii => (mrow ii (ev_u_c v), vscale (1 / 2) (vadd (mrow ii (ev_u v)) (mrow (ii + 1) (ev_u v))))) (seq 0 N))
     <-> controls_of scheme).
  { unfold controls_of. destruct (sub_in "parab" scheme); [split; [constructor|intros; constructor]|].
    assert (UC : forall i, (i < N)%nat -> length (mrow i (ev_u_c v)) = n_u) by (intros i Hi; apply (mrow_len N); [apply Hs|lia]).
    assert (UL : forall i, (i <= N)%nat -> length (mrow i (ev_u v)) = n_u) by (intros i Hi; apply (mrow_len (N + 1)); [apply Hs|lia]).
    destruct (sub_in "j" scheme); rewrite sat_map; unfold affine_controls, mget; cbn [fst snd]; split.
    - intros A i j Hi Hj. rewrite (A i ltac:(lia)). pose proof (UL i ltac:(lia)) as L0. pose proof (UL (i + 1)%nat ltac:(lia)) as L1. comp; lra.
    - intros A i Hi. pose proof (UL i ltac:(lia)) as M0. pose proof (UL (i + 1)%nat ltac:(lia)) as M1. pose proof (UC i ltac:(lia)) as M2. apply vec_ext; [len|].
      intros j Hj. rewrite UC in Hj by lia. rewrite (A i j) by lia. pose proof (UL i ltac:(lia)) as L0. pose proof (UL (i + 1)%nat ltac:(lia)) as L1. comp; lra.
    - intros A i j Hi Hj. rewrite (A i ltac:(lia)). pose proof (UL i ltac:(lia)) as L0. pose proof (UL (i + 1)%nat ltac:(lia)) as L1. comp; lra.
    - intros A i Hi. pose proof (UL i ltac:(lia)) as M0. pose proof (UL (i + 1)%nat ltac:(lia)) as M1. pose proof (UC i ltac:(lia)) as M2. apply vec_ext; [len|].
      intros j Hj. rewrite UC in Hj by lia. rewrite (A i j) by lia. pose proof (UL i ltac:(lia)) as L0. pose proof (UL (i + 1)%nat ltac:(lia)) as L1. comp; lra. }
  rewrite C. split.
  - intros [A [B [D X]]]. split; [intros i Hi; apply row_zero_iff, B; lia|].
    split; [|split; [|exact X]].
    + intros i Hi. specialize (D i ltac:(lia)). inversion D as [|? ? _ D1]; subst. inversion D1 as [|? ? D2 _]; subst. apply row_zero_iff. exact D2.
    + intros i Hi. split.
      * specialize (A i ltac:(lia)). apply row_zero_iff in A. rewrite !hrow, hcrow in A by lia. exact A.
      * specialize (D i ltac:(lia)). inversion D as [|? ? D1 _]; subst. cbn [fst snd] in D1. rewrite !hrow in D1 by lia. exact D1.
  - intros [B [D [A X]]]. split; [|split; [|split; [|exact X]]].
    + intros i Hi. apply row_zero_iff. rewrite !hrow, hcrow by lia. apply A. lia.
    + intros i Hi. apply row_zero_iff, B. lia.
    + intros i Hi. constructor; [|constructor; [|constructor]].
      * cbn [fst snd]. rewrite !hrow by lia. apply A. lia.
      * apply row_zero_iff, D. lia.
Qed.
End Apply.
