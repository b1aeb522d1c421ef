(** Proofs about the costs of equispaced problems. *)
From Coq Require Import String.
From Coquelicot Require Import Coquelicot.
From Verif Require Import Prelude PreludeFacts Poly PolyFacts PolyInterp Mat MatFacts
  PwInterpModel PsModel UtilModel BuTdModel UtilSpec GaussFacts CostSpec CostFacts CostModel.
Open Scope R_scope.
Open Scope vec_scope.
Open Scope list_scope.

(** *** Matrices *)
Lemma msq_shaped n m A : shaped n m A -> shaped n m (msq A).
Proof.
  intros [H1 H2]. unfold msq. split; [now rewrite map_length|].
  apply Forall_map. revert H2. apply Forall_impl. intros r Hr. now rewrite map_length.
Qed.
Lemma mget_msq n m A i j : shaped n m A -> (i < n)%nat -> (j < m)%nat -> mget (msq A) i j = mget A i j ^ 2.
Proof.
  intros HA Hi Hj. pose proof (shaped_row n m A i HA Hi) as Hr. destruct HA as [H1 H2].
  unfold mget, mrow, msq, vnth in *. rewrite (nth_indep _ [] (map (fun x => x ^ 2) [])) by (rewrite map_length; lia).
  rewrite map_nth. rewrite (nth_indep _ 0 (0 ^ 2)) by (rewrite map_length; lia).
  rewrite (map_nth (fun x => x ^ 2)). reflexivity.
Qed.
Lemma nth_firstn_lt {A} (d : A) n l i : (i < n)%nat -> nth i (firstn n l) d = nth i l d.
Proof. revert l i. induction n; intros [|a l] [|i] H; simpl; try lia; try reflexivity. apply IHn. lia. Qed.
Lemma mget_skip1 A i j : mget (skipn 1 A) i j = mget A (S i) j.
Proof. unfold mget, mrow. destruct A; simpl; [now destruct i|reflexivity]. Qed.
Lemma mget_butlast1 A i j : (i < length A - 1)%nat -> mget (butlastn 1 A) i j = mget A i j.
Proof. intros H. unfold mget, mrow, butlastn. simpl Nat.eqb. cbn match. now rewrite nth_firstn_lt. Qed.
Lemma length_butlast1 {A} (l : list A) : length (butlastn 1 l) = (length l - 1)%nat.
Proof. unfold butlastn. simpl Nat.eqb. cbn match. rewrite firstn_length. lia. Qed.

Lemma sum_all n j A : length A = n -> vsum (mcol j A) = rsum n (fun i => mget A i j).
Proof. intros <-. apply vsum_mcol. Qed.
Lemma sum_inner N j A : length A = S N ->
  vsum (mcol j (butlastn 1 (skipn 1 A))) = rsum (N - 1) (fun i => mget A (S i) j).
Proof.
  intros H. rewrite vsum_mcol, length_butlast1, skipn_length, H. replace (S N - 1 - 1)%nat with (N - 1)%nat by lia.
  apply rsum_ext. intros i Hi. rewrite mget_butlast1 by (rewrite skipn_length; lia). apply mget_skip1.
Qed.
Lemma sum_left N j A : length A = S N -> vsum (mcol j (butlastn 1 A)) = rsum N (fun i => mget A i j).
Proof.
  intros H. rewrite vsum_mcol, length_butlast1, H. replace (S N - 1)%nat with N by lia.
  apply rsum_ext. intros i Hi. apply mget_butlast1. lia.
Qed.
Lemma sum_right N j A : length A = S N -> vsum (mcol j (skipn 1 A)) = rsum N (fun i => mget A (S i) j).
Proof.
  intros H. rewrite vsum_mcol, skipn_length, H. replace (S N - 1)%nat with N by lia.
  apply rsum_ext. intros i Hi. apply mget_skip1.
Qed.

(** *** The rules on one step *)
Lemma cubic_form c : (length c <= 4)%nat -> exists p q r s, forall x, peval c x = p + q * x + r * x ^ 2 + s * x ^ 3.
Proof.
  intros H. exists (nth 0 c 0), (nth 1 c 0), (nth 2 c 0), (nth 3 c 0).
  destruct c as [|a [|b [|d [|e [|f c]]]]]; simpl in *; try lia; intros; ring.
Qed.
Lemma RInt_cubic c p q r s a b : (forall x, peval c x = p + q * x + r * x ^ 2 + s * x ^ 3) ->
  RInt (peval c) a b = p * (b - a) + q * (b ^ 2 - a ^ 2) / 2 + r * (b ^ 3 - a ^ 3) / 3 + s * (b ^ 4 - a ^ 4) / 4.
Proof.
  intros H.
  rewrite (RInt_antideriv [0; p; q / 2; r / 3; s / 4]).
  - simpl. field.
  - intros x. rewrite H. unfold pderiv. simpl. field.
Qed.
Lemma simpson_step c t h : (length c <= 4)%nat ->
  RInt (peval c) t (t + h) = h * (4 * peval c (t + 1 / 2 * h) + peval c t + peval c (t + h)) / 6.
Proof.
  intros H. destruct (cubic_form c H) as (p & q & r & s & E).
  rewrite (RInt_cubic c p q r s) by exact E. rewrite !E. req. field.
Qed.
Lemma affine_form c : (length c <= 2)%nat -> exists p q, forall x, peval c x = p + q * x.
Proof.
  intros H. exists (nth 0 c 0), (nth 1 c 0).
  destruct c as [|a [|b [|d c]]]; simpl in *; try lia; intros; ring.
Qed.
Lemma trapz_step c t h : (length c <= 2)%nat ->
  RInt (peval c) t (t + h) = h * (peval c t + peval c (t + h)) / 2.
Proof.
  intros H. destruct (affine_form c H) as (p & q & E).
  rewrite (RInt_cubic c p q 0 0) by (intros; rewrite E; ring). rewrite !E. req. field.
Qed.
Lemma parab_form c : (length c <= 3)%nat -> exists p q r, forall x, peval c x = p + q * x + r * x ^ 2.
Proof.
  intros H. exists (nth 0 c 0), (nth 1 c 0), (nth 2 c 0).
  destruct c as [|a [|b [|d [|e c]]]]; simpl in *; try lia; intros; ring.
Qed.
Lemma two_fifths_step c t h : (length c <= 3)%nat ->
  RInt (peval c) t (t + h) = h * (25 * peval c (t + 2 / 5 * h) + 3 * peval c t + 8 * peval c (t + h)) / 36.
Proof.
  intros H. destruct (parab_form c H) as (p & q & r & E).
  rewrite (RInt_cubic c p q r 0) by (intros; rewrite E; ring). rewrite !E. req. field.
Qed.
(** The square of the parabola with values a, b, c. *)
Lemma exact_step c t h : (length c <= 3)%nat ->
  RInt (peval (pmul c c)) t (t + h) = exact_entry h (peval c t) (peval c (t + 1 / 2 * h)) (peval c (t + h)).
Proof.
  intros H. destruct (parab_form c H) as (p & q & r & E).
  rewrite (RInt_antideriv [0; p * p; p * q; (2 * p * r + q * q) / 3; q * r / 2; r * r / 5]).
  - unfold exact_entry. rewrite !E. req. simpl. field.
  - intros x. rewrite peval_pmul, E. unfold pderiv. simpl. field.
Qed.

(** *** Choosing the pieces of a stepwise polynomial *)
Lemma choose_pieces (P : nat -> list R -> Prop) N :
  (forall i, (i < N)%nat -> exists c, P i c) -> exists c, forall i, (i < N)%nat -> P i (c i).
Proof.
  induction N as [|N IH]; intros H.
  - exists (fun _ => []). intros i Hi. lia.
  - destruct IH as [c Hc]. { intros i Hi. apply H. lia. }
    destruct (H N ltac:(lia)) as [d Hd].
    exists (fun i => if (i =? N)%nat then d else c i). intros i Hi.
    destruct (Nat.eqb_spec i N) as [->|E]; [exact Hd|]. apply Hc. lia.
Qed.

(** The integral of a stepwise polynomial through a rule that is exact on one
    step. *)
Lemma stepwise_rule d t0 tf N w (rule : R -> R -> list R -> R) : t0 < tf -> (1 <= N)%nat ->
  stepwise_poly d t0 tf N w ->
  (forall c t h, (length c <= d)%nat -> RInt (peval c) t (t + h) = rule t h c) ->
  exists c, (forall i, (i < N)%nat -> (length (c i) <= d)%nat /\
       forall t, node_time t0 tf N i <= t <= node_time t0 tf N (S i) -> w t = peval (c i) t) /\
    RInt w t0 tf = rsum N (fun i => rule (node_time t0 tf N i) ((tf - t0) / INR N) (c i)).
Proof.
  intros Ht HN Hw Hr. destruct (choose_pieces _ N Hw) as [c Hc]. exists c. split; [exact Hc|].
  rewrite (stepwise_RInt d t0 tf N w c Ht HN Hc). apply rsum_ext. intros i Hi.
  rewrite node_time_S. apply Hr. now apply Hc.
Qed.

Section OneColumn.
Variables (t0 tf : R) (N : nat).
Hypotheses (Ht : t0 < tf) (HN : (1 <= N)%nat).

Lemma piece_ends w c i : 
  (forall t, node_time t0 tf N i <= t <= node_time t0 tf N (S i) -> w t = peval c t) ->
  forall f, 0 <= f <= 1 ->
  w (step_time t0 tf N i f) = peval c (node_time t0 tf N i + f * ((tf - t0) / INR N)).
Proof.
  intros Hc f Hf. rewrite <- step_time_node. apply Hc. rewrite step_time_node, node_time_S.
  pose proof (step_pos t0 tf N Ht HN). nra.
Qed.
Lemma piece_start w c i :
  (forall t, node_time t0 tf N i <= t <= node_time t0 tf N (S i) -> w t = peval c t) ->
  w (node_time t0 tf N i) = peval c (node_time t0 tf N i).
Proof. intros Hc. apply Hc. rewrite node_time_S. pose proof (step_pos t0 tf N Ht HN). lra. Qed.
Lemma piece_end w c i :
  (forall t, node_time t0 tf N i <= t <= node_time t0 tf N (S i) -> w t = peval c t) ->
  w (node_time t0 tf N (S i)) = peval c (node_time t0 tf N i + (tf - t0) / INR N).
Proof. intros Hc. rewrite <- node_time_S. apply Hc. rewrite node_time_S. pose proof (step_pos t0 tf N Ht HN). lra. Qed.

Lemma trapz_RInt w : stepwise_poly 2 t0 tf N w ->
  RInt w t0 tf = (tf - t0) / INR N / 2 *
    rsum N (fun i => w (node_time t0 tf N i) + w (node_time t0 tf N (S i))).
Proof.
  intros Hw.
  destruct (stepwise_rule 2 t0 tf N w (fun t h c => h * (peval c t + peval c (t + h)) / 2) Ht HN Hw trapz_step)
    as (c & Hc & E).
  rewrite E, <- rsum_scal. apply rsum_ext. intros i Hi. destruct (Hc i Hi) as [_ Hp].
  rewrite (piece_start w (c i) i Hp), (piece_end w (c i) i Hp). field.
  pose proof (lt_0_INR N ltac:(lia)). lra.
Qed.
Lemma simpson_RInt w : stepwise_poly 4 t0 tf N w ->
  RInt w t0 tf = (tf - t0) / INR N / 6 *
    rsum N (fun i => 4 * w (step_time t0 tf N i (1 / 2)) + (w (node_time t0 tf N i) + w (node_time t0 tf N (S i)))).
Proof.
  intros Hw.
  destruct (stepwise_rule 4 t0 tf N w (fun t h c => h * (4 * peval c (t + 1 / 2 * h) + peval c t + peval c (t + h)) / 6)
              Ht HN Hw simpson_step) as (c & Hc & E).
  rewrite E, <- rsum_scal. apply rsum_ext. intros i Hi. destruct (Hc i Hi) as [_ Hp].
  rewrite (piece_start w (c i) i Hp), (piece_end w (c i) i Hp), (piece_ends w (c i) i Hp (1 / 2)) by lra. field.
  pose proof (lt_0_INR N ltac:(lia)). lra.
Qed.
Lemma two_fifths_RInt w : stepwise_poly 3 t0 tf N w ->
  RInt w t0 tf = (tf - t0) / INR N / 36 *
    rsum N (fun i => 25 * w (step_time t0 tf N i (2 / 5)) + (3 * w (node_time t0 tf N i) + 8 * w (node_time t0 tf N (S i)))).
Proof.
  intros Hw.
  destruct (stepwise_rule 3 t0 tf N w (fun t h c => h * (25 * peval c (t + 2 / 5 * h) + 3 * peval c t + 8 * peval c (t + h)) / 36)
              Ht HN Hw two_fifths_step) as (c & Hc & E).
  rewrite E, <- rsum_scal. apply rsum_ext. intros i Hi. destruct (Hc i Hi) as [_ Hp].
  rewrite (piece_start w (c i) i Hp), (piece_end w (c i) i Hp), (piece_ends w (c i) i Hp (2 / 5)) by lra. field.
  pose proof (lt_0_INR N ltac:(lia)). lra.
Qed.
Lemma exact_RInt w : stepwise_poly 3 t0 tf N w ->
  RInt (fun t => w t ^ 2) t0 tf =
    rsum N (fun i => exact_entry ((tf - t0) / INR N) (w (node_time t0 tf N i))
                       (w (step_time t0 tf N i (1 / 2))) (w (node_time t0 tf N (S i)))).
Proof.
  intros Hw. destruct (choose_pieces _ N Hw) as [c Hc].
  rewrite (stepwise_RInt 6 t0 tf N _ (fun i => pmul (c i) (c i)) Ht HN).
  - apply rsum_ext. intros i Hi. destruct (Hc i Hi) as [Hl Hp].
    rewrite (piece_start w (c i) i Hp), (piece_end w (c i) i Hp), (piece_ends w (c i) i Hp (1 / 2)) by lra.
    rewrite node_time_S. now apply exact_step.
  - intros i Hi. destruct (Hc i Hi) as [Hl Hp]. split.
    + destruct (pmul_le (c i) (c i)) as [H|[H|H]]; try lia; destruct (c i); simpl in *; try discriminate; lia.
    + intros t Htt. rewrite peval_pmul, (Hp t Htt). ring.
Qed.
End OneColumn.

(** *** The costs *)
Section Costs.
Variables (t0 tf : R) (N m : nat).
Hypotheses (Ht : t0 < tf) (HN : (1 <= N)%nat).

Lemma simpson_total U Uc W : shaped (S N) m U -> shaped N m Uc ->
  (forall j, (j < m)%nat -> stepwise_poly 4 t0 tf N (W j) /\ at_nodes (fun x => x) t0 tf N U j (W j) /\
     at_steps (fun x => x) (1 / 2) t0 tf N Uc j (W j)) ->
  (tf - t0) * sum2 ((((4 *v sum1 m Uc) +v sum1 m U) +v sum1 m (butlastn 1 (skipn 1 U))) /v (6 * INR N))
  = rsum m (fun j => RInt (W j) t0 tf).
Proof.
  intros HU HUc HW. pose proof (lt_0_INR N ltac:(lia)) as HNp.
  unfold sum2, sum1. rewrite vscale_seq, !vadd_seq, vdivs_seq, vsum_map_seq, <- rsum_scal.
  apply rsum_ext. intros j Hj. destruct (HW j Hj) as (Hp & Hn & Hs).
  rewrite (simpson_RInt t0 tf N Ht HN _ Hp).
  rewrite (sum_all N j Uc) by apply HUc. rewrite (sum_all (S N) j U) by apply HU. rewrite (sum_inner N j U) by apply HU.
  rewrite Rplus_assoc, (rsum_trapz N (fun i => mget U i j) HN).
  rewrite <- rsum_scal, <- rsum_plus.
  rewrite (rsum_ext N (fun i => 4 * W j _ + _) (fun i => 4 * mget Uc i j + (mget U i j + mget U (S i) j))).
  2:{ intros i Hi. rewrite (Hs i Hi), (Hn i), (Hn (S i)) by lia. reflexivity. }
  req. field. lra.
Qed.
Lemma trapz_total U W : shaped (S N) m U ->
  (forall j, (j < m)%nat -> stepwise_poly 2 t0 tf N (W j) /\ at_nodes (fun x => x) t0 tf N U j (W j)) ->
  (tf - t0) * sum2 ((sum1 m U +v sum1 m (butlastn 1 (skipn 1 U))) /v (2 * INR N))
  = rsum m (fun j => RInt (W j) t0 tf).
Proof.
  intros HU HW. pose proof (lt_0_INR N ltac:(lia)) as HNp.
  unfold sum2, sum1. rewrite !vadd_seq, vdivs_seq, vsum_map_seq, <- rsum_scal.
  apply rsum_ext. intros j Hj. destruct (HW j Hj) as (Hp & Hn).
  rewrite (trapz_RInt t0 tf N Ht HN _ Hp).
  rewrite (sum_all (S N) j U) by apply HU. rewrite (sum_inner N j U) by apply HU.
  rewrite (rsum_trapz N (fun i => mget U i j) HN).
  rewrite (rsum_ext N (fun i => W j _ + W j _) (fun i => mget U i j + mget U (S i) j)).
  2:{ intros i Hi. rewrite (Hn i), (Hn (S i)) by lia. reflexivity. }
  req. field. lra.
Qed.
Lemma two_fifths_total U Uc W : shaped (S N) m U -> shaped N m Uc ->
  (forall j, (j < m)%nat -> stepwise_poly 3 t0 tf N (W j) /\ at_nodes (fun x => x) t0 tf N U j (W j) /\
     at_steps (fun x => x) (2 / 5) t0 tf N Uc j (W j)) ->
  (tf - t0) * sum2 ((((25 *v sum1 m Uc) +v (3 *v sum1 m (butlastn 1 U))) +v (8 *v sum1 m (skipn 1 U))) /v (36 * INR N))
  = rsum m (fun j => RInt (W j) t0 tf).
Proof.
  intros HU HUc HW. pose proof (lt_0_INR N ltac:(lia)) as HNp.
  unfold sum2, sum1. rewrite !vscale_seq, !vadd_seq, vdivs_seq, vsum_map_seq, <- rsum_scal.
  apply rsum_ext. intros j Hj. destruct (HW j Hj) as (Hp & Hn & Hs).
  rewrite (two_fifths_RInt t0 tf N Ht HN _ Hp).
  rewrite (rsum_ext N (fun i => _ * W j _ + _) (fun i => 25 * mget Uc i j + (3 * mget U i j + 8 * mget U (S i) j))).
  2:{ intros i Hi. rewrite (Hs i Hi), (Hn i), (Hn (S i)) by lia. reflexivity. }
  rewrite !rsum_plus, !rsum_scal.
  rewrite (sum_all N j Uc) by apply HUc. rewrite (sum_left N j U) by apply HU. rewrite (sum_right N j U) by apply HU.
  req. field. lra.
Qed.
End Costs.
