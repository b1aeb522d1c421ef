(** The costs of equispaced problems as integrals. *)
From Coq Require Import String.
From Coquelicot Require Import Coquelicot.
From Verif Require Import Prelude PreludeFacts Poly PolyFacts PolyInterp Mat MatFacts
  PwInterpModel PsModel UtilModel BuTdModel UtilSpec GaussFacts CostSpec CostFacts CostModel CostProofs.
Open Scope R_scope.
Open Scope vec_scope.
Open Scope list_scope.

Definition linear_u_schemes : list string :=
  ["euler"; "trapz"; "trapz_mod"; "trapz_n"; "hs"; "hs_mod"; "hsj"; "hsn"]%string.
Definition simpson_u_schemes : list string := ["hs_parab"; "hs_mod_parab"; "hsn_parab"]%string.

(** *** Interpolants exist *)
Lemma stepwise_exists t0 tf N (c : nat -> list R) : t0 < tf -> (1 <= N)%nat -> forall n, (n <= N)%nat ->
  (forall i, (S i < n)%nat ->
     peval (c i) (node_time t0 tf N (S i)) = peval (c (S i)) (node_time t0 tf N (S i))) ->
  exists w, forall i, (i < n)%nat -> forall t,
    node_time t0 tf N i <= t <= node_time t0 tf N (S i) -> w t = peval (c i) t.
Proof.
  intros Ht HN. pose proof (step_pos t0 tf N Ht HN) as Hh. induction n as [|n IH]; intros Hn Hc.
  - exists (fun _ => 0). intros i Hi. lia.
  - destruct IH as [w Hw]; [lia|intros i Hi; apply Hc; lia|].
    exists (fun t => if Rle_dec (node_time t0 tf N n) t then peval (c n) t else w t).
    intros i Hi t Htt. destruct (Nat.eq_dec i n) as [->|E].
    + destruct (Rle_dec (node_time t0 tf N n) t); [reflexivity|lra].
    + assert (Hin : (i < n)%nat) by lia.
      destruct (Rle_dec (node_time t0 tf N n) t) as [Hle|]; [|apply Hw; assumption].
      assert (Hlen : node_time t0 tf N (S i) <= node_time t0 tf N n).
      { unfold node_time. apply Rplus_le_compat_l. apply Rmult_le_compat_r; [lra|]. apply le_INR. lia. }
      assert (Ei : S i = n).
      { destruct (Nat.eq_dec (S i) n) as [H|H]; [exact H|exfalso].
        assert (node_time t0 tf N (S i) < node_time t0 tf N n).
        { unfold node_time. apply Rplus_lt_compat_l. apply Rmult_lt_compat_r; [lra|]. apply lt_INR. lia. } lra. }
      subst n. replace t with (node_time t0 tf N (S i)) by lra. symmetry. apply Hc. lia.
Qed.

(** A polynomial through two or three given values. *)
Lemma interp_points ts ys : NoDup ts -> length ts = length ys ->
  exists c, (length c <= length ts)%nat /\ forall k, (k < length ts)%nat -> peval c (vnth ts k) = vnth ys k.
Proof.
  intros Hn Hl. exists (lagr_interp ts ys). destruct (lagr_interp_ok ts ys Hn) as [H1 H2].
  split; [exact H1|]. intros k Hk. apply H2. exact Hk.
Qed.

(** Node values [a] and interior values [b] at the fraction [f] of each step
    are those of a stepwise parabola. *)
Lemma parabola_exists t0 tf N (f : R) (a b : nat -> R) : t0 < tf -> (1 <= N)%nat -> 0 < f < 1 ->
  exists w, stepwise_poly 3 t0 tf N w /\
    (forall i, (i <= N)%nat -> w (node_time t0 tf N i) = a i) /\
    (forall i, (i < N)%nat -> w (step_time t0 tf N i f) = b i).
Proof.
  intros Ht HN Hf. pose proof (step_pos t0 tf N Ht HN) as Hh.
  assert (Hc : forall i, (i < N)%nat -> exists c, (length c <= 3)%nat /\
      peval c (node_time t0 tf N i) = a i /\ peval c (node_time t0 tf N (S i)) = a (S i) /\
      peval c (step_time t0 tf N i f) = b i).
  { intros i _.
    destruct (interp_points [node_time t0 tf N i; node_time t0 tf N (S i); step_time t0 tf N i f] [a i; a (S i); b i])
      as (c & Hl & Hk).
    - rewrite step_time_node, node_time_S. repeat constructor; simpl; intros H; repeat destruct H as [H|H]; try nra; auto.
    - reflexivity.
    - exists c. repeat split; [exact Hl|apply (Hk 0%nat)|apply (Hk 1%nat)|apply (Hk 2%nat)]; simpl; lia. }
  destruct (choose_pieces _ N Hc) as [c Hcc].
  destruct (stepwise_exists t0 tf N c Ht HN N (le_n N)) as [w Hw].
  { intros i Hi. destruct (Hcc i ltac:(lia)) as (_ & _ & E & _). destruct (Hcc (S i) ltac:(lia)) as (_ & E' & _).
    rewrite E, E'. reflexivity. }
  exists w. repeat split.
  - intros i Hi. exists (c i). split; [apply Hcc; exact Hi|apply Hw; exact Hi].
  - intros i Hi. destruct (Nat.eq_dec i N) as [->|E].
    + destruct N as [|n]; [lia|]. rewrite (Hw n) by (try lia; rewrite node_time_S; lra).
      apply Hcc. lia.
    + rewrite (Hw i) by (try lia; rewrite node_time_S; lra). apply Hcc. lia.
  - intros i Hi. rewrite (Hw i) by (try lia; rewrite step_time_node, node_time_S; nra). apply Hcc. exact Hi.
Qed.
Lemma polyline_exists t0 tf N (a : nat -> R) : t0 < tf -> (1 <= N)%nat ->
  exists w, stepwise_poly 2 t0 tf N w /\ forall i, (i <= N)%nat -> w (node_time t0 tf N i) = a i.
Proof.
  intros Ht HN. pose proof (step_pos t0 tf N Ht HN) as Hh.
  assert (Hc : forall i, (i < N)%nat -> exists c, (length c <= 2)%nat /\
      peval c (node_time t0 tf N i) = a i /\ peval c (node_time t0 tf N (S i)) = a (S i)).
  { intros i _.
    destruct (interp_points [node_time t0 tf N i; node_time t0 tf N (S i)] [a i; a (S i)]) as (c & Hl & Hk).
    - rewrite node_time_S. repeat constructor; simpl; intros H; repeat destruct H as [H|H]; try nra; auto.
    - reflexivity.
    - exists c. repeat split; [exact Hl|apply (Hk 0%nat)|apply (Hk 1%nat)]; simpl; lia. }
  destruct (choose_pieces _ N Hc) as [c Hcc].
  destruct (stepwise_exists t0 tf N c Ht HN N (le_n N)) as [w Hw].
  { intros i Hi. destruct (Hcc i ltac:(lia)) as (_ & _ & E). destruct (Hcc (S i) ltac:(lia)) as (_ & E' & _).
    rewrite E, E'. reflexivity. }
  exists w. split.
  - intros i Hi. exists (c i). split; [apply Hcc; exact Hi|apply Hw; exact Hi].
  - intros i Hi. destruct (Nat.eq_dec i N) as [->|E].
    + destruct N as [|n]; [lia|]. rewrite (Hw n) by (try lia; rewrite node_time_S; lra). apply Hcc. lia.
    + rewrite (Hw i) by (try lia; rewrite node_time_S; lra). apply Hcc. lia.
Qed.
Lemma stepwise_le d d' t0 tf N w : (d <= d')%nat -> stepwise_poly d t0 tf N w -> stepwise_poly d' t0 tf N w.
Proof. intros H Hw i Hi. destruct (Hw i Hi) as (c & Hc & E). exists c. split; [lia|exact E]. Qed.

Lemma nth_skip1 {A} (l : list A) i d : nth i (skipn 1 l) d = nth (S i) l d.
Proof. destruct l; simpl; [now destruct i|reflexivity]. Qed.

(** *** u_sq_cost *)
Section USq.
Variables (t0 tf : R) (N m : nat).
Hypotheses (Ht : t0 < tf) (HN : (1 <= N)%nat).

Lemma sq_nodes U j w : shaped (S N) m U -> (j < m)%nat ->
  at_nodes (fun x => x ^ 2) t0 tf N U j w -> at_nodes (fun x => x) t0 tf N (msq U) j w.
Proof. intros HU Hj H i Hi. rewrite (H i Hi). symmetry. apply (mget_msq (S N) m); [exact HU|lia|exact Hj]. Qed.
Lemma sq_steps f U j w : shaped N m U -> (j < m)%nat ->
  at_steps (fun x => x ^ 2) f t0 tf N U j w -> at_steps (fun x => x) f t0 tf N (msq U) j w.
Proof. intros HU Hj H i Hi. rewrite (H i Hi). symmetry. apply (mget_msq N m); [exact HU|exact Hi|exact Hj]. Qed.

Theorem u_sq_linear s u u_c u_j W : In s linear_u_schemes -> shaped (S N) m u ->
  (forall j, (j < m)%nat -> stepwise_poly 2 t0 tf N (W j) /\ at_nodes (fun x => x ^ 2) t0 tf N u j (W j)) ->
  eq_u_sq_cost t0 tf N s u u_c u_j = (rsum m (fun j => RInt (W j) t0 tf), []).
Proof.
  intros Hs Hu HW. pose proof (shaped_mwidth _ _ _ Hu (Nat.lt_0_succ N)) as Hm.
  rewrite <- (trapz_total t0 tf N m Ht HN (msq u) W (msq_shaped _ _ _ Hu)).
  - unfold eq_u_sq_cost. rewrite Hm. simpl in Hs. repeat destruct Hs as [<-|Hs]; try contradiction; reflexivity.
  - intros j Hj. destruct (HW j Hj) as [H1 H2]. split; [exact H1|]. now apply sq_nodes.
Qed.
Theorem u_sq_simpson s u u_c u_j W : In s simpson_u_schemes -> shaped (S N) m u -> shaped N m u_c ->
  (forall j, (j < m)%nat -> stepwise_poly 4 t0 tf N (W j) /\ at_nodes (fun x => x ^ 2) t0 tf N u j (W j) /\
     at_steps (fun x => x ^ 2) (1 / 2) t0 tf N u_c j (W j)) ->
  eq_u_sq_cost t0 tf N s u u_c u_j = (rsum m (fun j => RInt (W j) t0 tf), []).
Proof.
  intros Hs Hu Huc HW. pose proof (shaped_mwidth _ _ _ Hu (Nat.lt_0_succ N)) as Hm.
  rewrite <- (simpson_total t0 tf N m Ht HN (msq u) (msq u_c) W (msq_shaped _ _ _ Hu) (msq_shaped _ _ _ Huc)).
  - unfold eq_u_sq_cost. rewrite Hm. simpl in Hs. repeat destruct Hs as [<-|Hs]; try contradiction; reflexivity.
  - intros j Hj. destruct (HW j Hj) as (H1 & H2 & H3). split; [exact H1|]. split; [now apply sq_nodes|now apply sq_steps].
Qed.
Theorem u_sq_two_fifths u u_c u_j W : shaped (S N) m u -> shaped N m u_c ->
  (forall j, (j < m)%nat -> stepwise_poly 3 t0 tf N (W j) /\ at_nodes (fun x => x ^ 2) t0 tf N u j (W j) /\
     at_steps (fun x => x ^ 2) (2 / 5) t0 tf N u_c j (W j)) ->
  eq_u_sq_cost t0 tf N "hsj_parab" u u_c u_j = (rsum m (fun j => RInt (W j) t0 tf), []).
Proof.
  intros Hu Huc HW. pose proof (shaped_mwidth _ _ _ Hu (Nat.lt_0_succ N)) as Hm.
  rewrite <- (two_fifths_total t0 tf N m Ht HN (msq u) (msq u_c) W (msq_shaped _ _ _ Hu) (msq_shaped _ _ _ Huc)).
  - unfold eq_u_sq_cost. rewrite Hm. reflexivity.
  - intros j Hj. destruct (HW j Hj) as (H1 & H2 & H3). split; [exact H1|]. split; [now apply sq_nodes|now apply sq_steps].
Qed.

(** For hsj_parab_mod the integration uses u_j, and the added constraint says
    that u_c is on the parabola through the values of u and u_j. *)
Lemma mod_row i u u_c u_j : shaped (S N) m u -> shaped N m u_c -> shaped N m u_j -> (i < N)%nat ->
  nth i (map2 (fun c nu => ((24 *v c) -v (2 *v fst nu) +v (3 *v snd nu)) /v 25) u_j
          (combine (skipn 1 u) (butlastn 1 u))) []
  = ((24 *v mrow i u_j) -v (2 *v mrow (S i) u) +v (3 *v mrow i u)) /v 25.
Proof.
  intros Hu Huc Huj Hi.
  assert (L : length (combine (skipn 1 u) (butlastn 1 u)) = N).
  { rewrite combine_length, skipn_length, length_butlast1. destruct Hu as [-> _]. lia. }
  assert (K : forall {A B C} (f : A -> B -> C) l m' k da db dc, (k < length l)%nat -> (k < length m')%nat ->
     nth k (map2 f l m') dc = f (nth k l da) (nth k m' db)).
  { clear. intros A B C f l. induction l as [|a l IH]; intros [|b m'] [|k] da db dc H1 H2; simpl in *; try lia; auto.
    apply IH; lia. }
  rewrite (K _ _ _ _ _ _ i [] ([], []) []).
  - rewrite combine_nth by (rewrite skipn_length, length_butlast1; lia). cbn [fst snd].
    unfold mrow. rewrite (nth_skip1 u i []). unfold butlastn. simpl Nat.eqb. cbn match.
    rewrite nth_firstn_lt by (destruct Hu as [-> _]; lia). reflexivity.
  - destruct Huj as [-> _]. exact Hi.
  - rewrite L. exact Hi.
Qed.

Theorem u_sq_parab_mod u u_c u_j W : shaped (S N) m u -> shaped N m u_c -> shaped N m u_j ->
  (forall j, (j < m)%nat -> stepwise_poly 4 t0 tf N (W j) /\ at_nodes (fun x => x ^ 2) t0 tf N u j (W j) /\
     at_steps (fun x => x ^ 2) (1 / 2) t0 tf N u_j j (W j)) ->
  exists cs, eq_u_sq_cost t0 tf N "hsj_parab_mod" u u_c u_j = (rsum m (fun j => RInt (W j) t0 tf), cs) /\
    (satisfied cs <-> forall i j, (i < N)%nat -> (j < m)%nat ->
       forall c, (length c <= 3)%nat -> peval c 0 = mget u i j -> peval c (1 / 2) = mget u_j i j ->
         peval c 1 = mget u (S i) j -> mget u_c i j = peval c (2 / 5)).
Proof.
  intros Hu Huc Huj HW. pose proof (shaped_mwidth _ _ _ Hu (Nat.lt_0_succ N)) as Hm.
  eexists. split.
  - rewrite <- (simpson_total t0 tf N m Ht HN (msq u) (msq u_j) W (msq_shaped _ _ _ Hu) (msq_shaped _ _ _ Huj)).
    + unfold eq_u_sq_cost. rewrite Hm. reflexivity.
    + intros j Hj. destruct (HW j Hj) as (H1 & H2 & H3). split; [exact H1|]. split; [now apply sq_nodes|now apply sq_steps].
  - set (M := map2 _ u_j _).
    assert (HM : shaped N m M).
    { unfold M. split.
      - rewrite map2_length, combine_length, skipn_length, length_butlast1.
        destruct Hu as [-> _], Huj as [-> _]. lia.
      - apply Forall_forall. intros r Hr. destruct (In_nth _ _ [] Hr) as (i & Hi & <-).
        rewrite map2_length, combine_length, skipn_length, length_butlast1 in Hi.
        assert (Hi' : (i < N)%nat) by (destruct Hu as [E _], Huj as [E' _]; rewrite E, E' in Hi; lia).
        rewrite (mod_row i u u_c u_j Hu Huc Huj Hi').
        rewrite vdivs_length, vadd_length, vsub_length, !vscale_length.
        rewrite (shaped_row N m u_j i Huj Hi'), (shaped_row (S N) m u (S i) Hu), (shaped_row (S N) m u i Hu) by lia. lia. }
    assert (Hget : forall i j, (i < N)%nat -> (j < m)%nat ->
       mget M i j = (24 * mget u_j i j - 2 * mget u (S i) j + 3 * mget u i j) / 25).
    { intros i j Hi Hj. unfold mget at 1, mrow at 1, M. rewrite (mod_row i u u_c u_j Hu Huc Huj Hi).
      assert (L1 := shaped_row N m u_j i Huj Hi). assert (L2 := shaped_row (S N) m u (S i) Hu ltac:(lia)).
      assert (L3 := shaped_row (S N) m u i Hu ltac:(lia)).
      rewrite vnth_vdivs, vnth_vadd, vnth_vsub, !vnth_vscale
        by (rewrite ?vadd_length, ?vsub_length, ?vscale_length; lia). reflexivity. }
    unfold satisfied. rewrite Forall_cons_iff. cbn [fst snd]. split.
    + intros [E _] i j Hi Hj c Hl E0 E1 E2. rewrite E, Hget by assumption.
      rewrite <- E0, <- E1, <- E2. destruct (parab_form c Hl) as (p & q & r & F). rewrite !F. field.
    + intros H. split; [|constructor].
      apply (mat_ext N m); [exact Huc|exact HM|]. intros i j Hi Hj. rewrite Hget by assumption.
      destruct (interp_points [0; 1 / 2; 1] [mget u i j; mget u_j i j; mget u (S i) j]) as (c & Hl & Hk).
      * repeat constructor; simpl; intros K; repeat destruct K as [K|K]; try lra; auto.
      * reflexivity.
      * pose proof (Hk 0%nat ltac:(simpl; lia)) as E0. pose proof (Hk 1%nat ltac:(simpl; lia)) as E1.
        pose proof (Hk 2%nat ltac:(simpl; lia)) as E2. unfold vnth in E0, E1, E2. cbn [nth] in E0, E1, E2.
        rewrite (H i j Hi Hj c Hl E0 E1 E2), <- E0, <- E1, <- E2.
        destruct (parab_form c Hl) as (p & q & r & F). rewrite !F. field.
Qed.

(** *** quad_cost *)
Lemma sq_id (squared : bool) n A j i : shaped n m A -> (i < n)%nat -> (j < m)%nat ->
  mget (if squared then msq A else A) i j = pow_exp squared (mget A i j).
Proof.
  intros HA Hi Hj. unfold pow_exp. destruct squared; [apply (mget_msq n m); assumption|ring].
Qed.
Theorem quad_cost_simpson arr arr_c squared W : shaped (S N) m arr -> shaped N m arr_c ->
  (forall j, (j < m)%nat -> stepwise_poly 4 t0 tf N (W j) /\ at_nodes (pow_exp squared) t0 tf N arr j (W j) /\
     at_steps (pow_exp squared) (1 / 2) t0 tf N arr_c j (W j)) ->
  eq_quad_cost t0 tf N arr (Some arr_c) squared = rsum m (fun j => RInt (W j) t0 tf).
Proof.
  intros Hu Huc HW. pose proof (shaped_mwidth _ _ _ Hu (Nat.lt_0_succ N)) as Hm.
  rewrite <- (simpson_total t0 tf N m Ht HN (if squared then msq arr else arr) (if squared then msq arr_c else arr_c) W).
  - unfold eq_quad_cost. rewrite Hm. reflexivity.
  - destruct squared; [now apply msq_shaped|assumption].
  - destruct squared; [now apply msq_shaped|assumption].
  - intros j Hj. destruct (HW j Hj) as (H1 & H2 & H3). split; [exact H1|]. split.
    + intros i Hi. rewrite (H2 i Hi), (sq_id squared (S N)) by (auto; lia). reflexivity.
    + intros i Hi. rewrite (H3 i Hi), (sq_id squared N) by auto. reflexivity.
Qed.
(** Without the middle values the result is twice the integral. *)
Theorem quad_cost_trapz_twice arr squared W : shaped (S N) m arr ->
  (forall j, (j < m)%nat -> stepwise_poly 2 t0 tf N (W j) /\ at_nodes (pow_exp squared) t0 tf N arr j (W j)) ->
  eq_quad_cost t0 tf N arr None squared = 2 * rsum m (fun j => RInt (W j) t0 tf).
Proof.
  intros Hu HW. pose proof (shaped_mwidth _ _ _ Hu (Nat.lt_0_succ N)) as Hm.
  rewrite <- (trapz_total t0 tf N m Ht HN (if squared then msq arr else arr) W).
  - unfold eq_quad_cost. rewrite Hm. unfold sum2, sum1. rewrite !vadd_seq, !vdivs_seq, !vsum_map_seq.
    rewrite <- !rsum_scal. apply rsum_ext. intros j Hj. pose proof (lt_0_INR N ltac:(lia)). field. lra.
  - destruct squared; [now apply msq_shaped|assumption].
  - intros j Hj. destruct (HW j Hj) as (H1 & H2). split; [exact H1|].
    intros i Hi. rewrite (H2 i Hi), (sq_id squared (S N)) by (auto; lia). reflexivity.
Qed.
End USq.
