(** Facts about sums of matrices and integrals step by step. *)
From Coquelicot Require Import Coquelicot.
From Verif Require Import Prelude PreludeFacts Poly PolyFacts PolyInterp Mat MatFacts UtilSpec GaussFacts CostSpec.
Open Scope R_scope.
Open Scope vec_scope.
Open Scope list_scope.

Lemma vadd_seq m f g : map f (seq 0 m) +v map g (seq 0 m) = map (fun j => f j + g j) (seq 0 m).
Proof.
  generalize 0%nat as s. induction m as [|m IH]; intros s; [reflexivity|].
  cbn [seq map]. unfold vadd in *. cbn [map2]. f_equal. apply IH.
Qed.
Lemma vscale_seq k m f : k *v map f (seq 0 m) = map (fun j => k * f j) (seq 0 m).
Proof. unfold vscale. apply map_map. Qed.
Lemma vdivs_seq k m f : map f (seq 0 m) /v k = map (fun j => f j / k) (seq 0 m).
Proof. unfold vdivs. apply map_map. Qed.

Lemma vsum_mcol A j : vsum (mcol j A) = rsum (length A) (fun i => mget A i j).
Proof.
  rewrite vsum_rsum. unfold mcol. rewrite map_length. apply rsum_ext. intros i Hi.
  unfold vnth at 1. rewrite (nth_indep _ 0 (vnth [] j)) by now rewrite map_length.
  rewrite map_nth with (f := fun r => vnth r j). reflexivity.
Qed.

(** Ends once, inner points twice. *)
Lemma rsum_trapz N a : (1 <= N)%nat ->
  rsum (S N) a + rsum (N - 1) (fun i => a (S i)) = rsum N (fun i => a i + a (S i)).
Proof.
  intros H. rewrite rsum_plus. destruct N as [|n]; [lia|].
  replace (S n - 1)%nat with n by lia. rewrite <- Rplus_comm.
  change (rsum (S (S n)) a) with (rsum (S n) a + a (S n)).
  change (rsum (S n) (fun i => a (S i))) with (rsum n (fun i => a (S i)) + a (S n)). ring.
Qed.

Lemma node_time_0 t0 tf N : node_time t0 tf N 0 = t0.
Proof. unfold node_time. simpl. ring. Qed.
Lemma node_time_N t0 tf N : (1 <= N)%nat -> node_time t0 tf N N = tf.
Proof. intros H. unfold node_time. pose proof (lt_0_INR N ltac:(lia)). field. lra. Qed.
Lemma node_time_S t0 tf N i : node_time t0 tf N (S i) = node_time t0 tf N i + (tf - t0) / INR N.
Proof. unfold node_time. rewrite S_INR. ring. Qed.
Lemma step_time_node t0 tf N i f : step_time t0 tf N i f = node_time t0 tf N i + f * ((tf - t0) / INR N).
Proof. unfold step_time, node_time. ring. Qed.
Lemma step_pos t0 tf N : t0 < tf -> (1 <= N)%nat -> 0 < (tf - t0) / INR N.
Proof. intros H HN. pose proof (lt_0_INR N ltac:(lia)). apply Rdiv_lt_0_compat; lra. Qed.

(** The integral of a stepwise polynomial is the sum of the integrals of its
    pieces. *)
Lemma stepwise_RInt d t0 tf N w (c : nat -> list R) : t0 < tf -> (1 <= N)%nat ->
  (forall i, (i < N)%nat -> (length (c i) <= d)%nat /\
     forall t, node_time t0 tf N i <= t <= node_time t0 tf N (S i) -> w t = peval (c i) t) ->
  RInt w t0 tf = rsum N (fun i => RInt (peval (c i)) (node_time t0 tf N i) (node_time t0 tf N (S i))).
Proof.
  intros Ht HN Hc. pose proof (step_pos t0 tf N Ht HN) as Hh.
  assert (K : forall n, (n <= N)%nat ->
    is_RInt w t0 (node_time t0 tf N n)
      (rsum n (fun i => RInt (peval (c i)) (node_time t0 tf N i) (node_time t0 tf N (S i))))).
  { induction n as [|n IH]; intros Hn.
    - rewrite node_time_0. cbn [rsum]. apply (is_RInt_point w t0).
    - cbn [rsum]. apply (is_RInt_Chasles w t0 (node_time t0 tf N n)).
      + apply IH. lia.
      + destruct (Hc n ltac:(lia)) as [_ Hw].
        apply is_RInt_ext with (f := peval (c n)).
        * intros t Htt. symmetry. apply Hw. rewrite node_time_S in Htt |- *.
          rewrite Rmin_left, Rmax_right in Htt by lra. lra.
        * apply (RInt_correct (peval (c n))). apply (ex_RInt_continuous (peval (c n))). intros z _.
          apply (ex_derive_continuous (peval (c n))). eexists. apply is_derive_peval. }
  rewrite <- (node_time_N t0 tf N HN) at 1. apply is_RInt_unique. apply K. lia.
Qed.
