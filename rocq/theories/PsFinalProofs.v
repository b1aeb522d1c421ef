(** The pseudospectral lemmas in the form in which PsProps.v states them. *)
From Coq Require Import String.
From Coquelicot Require Import Coquelicot.
From Verif Require Import Prelude PreludeFacts Poly PolyFacts PolyInterp Mat MatFacts
  PwInterpModel PwInterpSpec PwMoreProofs
  PsModel JacobiFacts PsSpec PsPointsProofs PsBaryProofs PsNodesProofs PsProblemProofs PsApplyProofs PsInterpProofs PsMoreProofs.
Open Scope R_scope.
Open Scope list_scope.

Lemma maps_ends t0 tf : tau_to_t_points [-1; 1] t0 tf = [t0; tf].
Proof. unfold tau_to_t_points. cbn [map]. now rewrite tau_start, tau_end. Qed.
Lemma maps_affine t0 tf a b k :
  tau_to_t ((1 - k) * a + k * b) t0 tf = (1 - k) * tau_to_t a t0 tf + k * tau_to_t b t0 tf.
Proof. rewrite !tau_to_t_affine. ring. Qed.
Lemma maps_inverse t0 tf l : t0 <> tf ->
  t_to_tau_points (tau_to_t_points l t0 tf) t0 tf = l /\ tau_to_t_points (t_to_tau_points l t0 tf) t0 tf = l.
Proof.
  intros H. unfold tau_to_t_points, t_to_tau_points. rewrite !map_map. split.
  - rewrite <- (map_id l) at 2. apply map_ext. intros a. now apply tau_to_t_back.
  - rewrite <- (map_id l) at 2. apply map_ext. intros a. now apply t_to_tau_back.
Qed.
Lemma maps_function {A} (f : R -> A) t0 tf tau : t0 <> tf ->
  tau_to_t_function f t0 tf (tau_to_t tau t0 tf) = f tau.
Proof. intros H. unfold tau_to_t_function. f_equal. unfold tau_to_t. field. lra. Qed.

Section Scheme.
Variable rr : list R -> list R.
Hypothesis OK : real_roots_ok rr.

Lemma bookkeeping s N : In s all_schemes -> enough_points s N ->
  exists n nd cl sl, n_col_to_n_nodes s N = Ok n /\ node_points rr n s = Ok nd /\ length nd = n /\ increasing nd /\
    coll_points rr N s 2 = Ok cl /\ length cl = N /\ get_coll_indices_from_nodes s = Ok sl /\ take sl nd = cl.
Proof.
  intros H E. destruct (nodes_shape rr OK s N H E) as (c & S & Ec & En & Ep).
  exists (nodes_of s N), (with_ends (nstarts s) (nends s) c), (with_ends (starts s) (ends s) c).
  exists (b2n (nstarts s) - b2n (starts s), b2n (nends s) - b2n (ends s))%nat.
  split; [exact En|]. split; [exact Ep|]. split.
  { rewrite with_ends_length. unfold nodes_of. destruct S as [-> _]. reflexivity. }
  split; [exact (with_ends_incr _ _ _ _ S)|]. split; [exact Ec|]. split.
  { rewrite with_ends_length. destruct S as [-> _]. now apply enough_length. }
  split.
  - clear - H. scheme_cases H; reflexivity.
  - destruct (in_enough_starts_nodes s H) as [A B]. now apply take_with_ends.
Qed.
Lemma setup_bookkeeping p : In (ps_scheme p) all_schemes -> enough_points (ps_scheme p) (ps_n_coll p) ->
  (In (ps_scheme p) second_order_schemes -> ps_order p = 2%nat) ->
  exists st sl, opti_setup rr p = Ok st /\
    n_col_to_n_nodes (ps_scheme p) (ps_n_coll p) = Ok (pset_n_nodes st) /\
    length (pset_tau st) = pset_n_arr st /\ length (pset_tau_node st) = pset_n_nodes st /\
    length (pset_tau_col st) = ps_n_coll p /\
    increasing (pset_tau st) /\ vnth (pset_tau st) 0 = -1 /\ vnth (pset_tau st) (pset_n_arr st - 1) = 1 /\
    take (pset_node st) (pset_tau st) = pset_tau_node st /\
    get_coll_indices (ps_scheme p) = Ok sl /\ take sl (pset_tau st) = pset_tau_col st.
Proof.
  intros H E O. destruct (setup_shape rr OK p H E O) as (c & S & Ec & Ep & L & Es).
  set (s := ps_scheme p) in *.
  eexists. exists (1 - b2n (starts s), 1 - b2n (ends s))%nat. split; [exact Es|].
  cbn [pset_n_nodes pset_n_arr pset_D pset_tau pset_tau_node pset_tau_col pset_node].
  split; [now apply (nodes_of_coll rr OK)|]. split; [rewrite with_ends_length; simpl; lia|]. split; [exact L|].
  split; [rewrite with_ends_length; destruct S as [-> _]; now apply enough_length|].
  split; [exact (with_ends_incr _ _ _ _ S)|]. split; [apply with_ends_first|]. split.
  { replace (2 + length c - 1)%nat with (length (with_ends true true c) - 1)%nat by (rewrite with_ends_length; simpl; lia).
    apply with_ends_last. }
  split; [exact (take_with_ends true true (nstarts s) (nends s) c (fun _ => eq_refl) (fun _ => eq_refl))|].
  split; [|exact (take_with_ends true true (starts s) (ends s) c (fun _ => eq_refl) (fun _ => eq_refl))].
  clear - H. revert H. generalize s. clear s. intros s H. scheme_cases H; reflexivity.
Qed.
Lemma setup_second_order p : In (ps_scheme p) second_order_schemes -> ps_order p <> 2%nat ->
  opti_setup rr p = Err AssertionError.
Proof.
  intros H O. unfold opti_setup. apply Nat.eqb_neq in O. rewrite O.
  cbv [second_order_schemes In] in H. repeat (destruct H as [<-|H]; [reflexivity|]). destruct H.
Qed.
Lemma unknown_scheme s N order : ~ In s all_schemes ->
  coll_points rr N s order = Err ValueError /\ node_points rr N s = Err ValueError /\
  n_col_to_n_nodes s N = Err NotImplementedError /\ get_coll_indices s = Err NotImplementedError /\
  get_coll_indices_from_nodes s = Err NotImplementedError.
Proof.
  intros H.
  assert (M : forall l, incl l all_schemes -> mem s l = false).
  { intros l I. destruct (mem s l) eqn:B; [|reflexivity]. apply mem_In in B. exfalso. apply H. now apply I. }
  assert (Q : forall a, In a all_schemes -> (s =? a)%string = false).
  { intros a I. apply String.eqb_neq. intros ->. contradiction. }
  unfold coll_points, node_points, n_col_to_n_nodes, get_coll_indices, get_coll_indices_from_nodes.
  repeat rewrite M by (intros a K; cbv in K; cbv; tauto).
  repeat rewrite Q by (cbv; tauto). repeat split.
Qed.
Lemma nodes_ok s N n : In s all_schemes -> enough_points s N -> n_col_to_n_nodes s N = Ok n ->
  exists nd, node_points rr n s = Ok nd /\
    point_set (~ In s gauss_inv_schemes) (~ In s gauss_schemes) n nd.
Proof.
  intros H E En. destruct (nodes_shape rr OK s N H E) as (c & S & Ec & En' & Ep).
  rewrite En in En'. injection En' as ->. exists (with_ends (nstarts s) (nends s) c). split; [exact Ep|].
  destruct (with_ends_ok (nstarts s) (nends s) _ _ S) as (A & B & C & D & F).
  split; [|split; [exact B|split; [exact C|split]]].
  - rewrite with_ends_length. unfold nodes_of. destruct S as [-> _]. reflexivity.
  - rewrite D. apply nstarts_spec.
  - rewrite F. apply nends_spec.
Qed.

(** Shape of the node set, with the count as the code gives it. *)
Lemma nodes_get s N n : In s all_schemes -> enough_points s N -> n_col_to_n_nodes s N = Ok n -> n = nodes_of s N.
Proof. intros H E En. rewrite (nodes_of_coll rr OK s N H E) in En. congruence. Qed.

Lemma interp_pol s N n t0 t1 qq vv uu m1 m3 Q V U nd cl t :
  In s all_schemes -> enough_points s N -> n_col_to_n_nodes s N = Ok n -> t0 <> t1 ->
  shaped n m1 qq -> shaped n m1 vv -> shaped N m3 uu ->
  node_points rr n s = Ok nd -> coll_points rr N s 2 = Ok cl ->
  length Q = m1 -> length V = m1 -> length U = m3 ->
  traj_through (tau_to_t_points nd t0 t1) qq Q -> traj_through (tau_to_t_points nd t0 t1) vv V ->
  traj_through (tau_to_t_points cl t0 t1) uu U ->
  interpolations_pseudospectral rr qq vv uu s t0 t1 "pol" "pol" t =
    Ok (state_at Q t, rate_at Q t, state_at V t, rate_at V t, rate_n_at 2 Q t, state_at U t).
Proof. intros H E En. rewrite (nodes_get s N n H E En). now apply interp_pol_ok. Qed.
Lemma interp_deriv_pol s N n t0 t1 xx m P nd k t :
  In s all_schemes -> enough_points s N -> n_col_to_n_nodes s N = Ok n -> t0 <> t1 -> shaped n m xx ->
  node_points rr n s = Ok nd -> length P = m -> traj_through (tau_to_t_points nd t0 t1) xx P ->
  interpolations_deriv_pseudospectral rr xx s k t0 t1 "pol" t = Ok (rate_n_at k P t).
Proof. intros H E En. rewrite (nodes_get s N n H E En). now apply interp_deriv_pol_ok. Qed.
Lemma interp_lin_nodes s N n t0 t1 qq vv uu m1 m3 U nd cl i :
  In s not_extended -> enough_points s N -> n_col_to_n_nodes s N = Ok n -> t0 < t1 -> (2 <= n)%nat ->
  shaped n m1 qq -> shaped n m1 vv -> shaped N m3 uu ->
  node_points rr n s = Ok nd -> coll_points rr N s 2 = Ok cl ->
  length U = m3 -> traj_through (tau_to_t_points cl t0 t1) uu U -> (i < n)%nat ->
  exists qd vd z, interpolations_pseudospectral rr qq vv uu s t0 t1 "pol" "lin" (vnth (tau_to_t_points nd t0 t1) i)
    = Ok (mrow i qq, qd, mrow i vv, vd, z, state_at U (vnth (tau_to_t_points nd t0 t1) i)).
Proof.
  intros H E En. assert (HA : In s all_schemes) by (cbv in H; cbv; tauto).
  rewrite (nodes_get s N n HA E En). now apply lin_nodes.
Qed.
Lemma interp_lin_controls s N n t0 t1 qq vv uu m1 m3 x_interp t :
  In s all_schemes -> enough_points s N -> n_col_to_n_nodes s N = Ok n -> n <> N ->
  shaped n m1 qq -> shaped N m3 uu ->
  interpolations_pseudospectral rr qq vv uu s t0 t1 "lin" x_interp t = Err ValueError.
Proof. intros H E En. rewrite (nodes_get s N n H E En). now apply lin_controls_fail. Qed.

Lemma extreme_u s N order point p : In s all_schemes -> enough_points s N ->
  In (point, p) [("start"%string, -1); ("end"%string, 1)] ->
  exists ts f, coll_points rr N s order = Ok ts /\ get_bary_extreme_f rr s N "u" point order = Ok f /\
    forall coefs c, length coefs = length ts -> interpolates ts coefs c -> run_extreme f coefs = Ok (peval c p).
Proof.
  intros H E [I|[I|[]]]; injection I as <- <-; [now apply extreme_u_start|now apply extreme_u_end].
Qed.
Lemma extreme_x s N n order point p : In s all_schemes -> enough_points s N -> n_col_to_n_nodes s N = Ok n ->
  In (point, p) [("start"%string, -1); ("end"%string, 1)] -> (order <= 2)%nat ->
  exists ts f, node_points rr n s = Ok ts /\ get_bary_extreme_f rr s n "x" point order = Ok f /\
    forall coefs c, length coefs = length ts -> interpolates ts coefs c -> run_extreme f coefs = Ok (peval c p).
Proof.
  intros H E En I O. rewrite (nodes_get s N n H E En).
  destruct I as [I|[I|[]]]; injection I as <- <-; [now apply extreme_x_start|now apply extreme_x_end].
Qed.
Lemma diff_end s N n coefs c nd : In s all_schemes -> enough_points s N -> n_col_to_n_nodes s N = Ok n ->
  node_points rr n s = Ok nd -> length coefs = n -> interpolates nd coefs c ->
  diff_end_p_fun rr n s coefs = Ok (Derive (peval c) 1).
Proof.
  intros H E En Ep L I. destruct (nodes_ok s N n H E En) as (nd' & Ep' & S). rewrite Ep in Ep'. injection Ep' as <-.
  destruct S as (Ln & In & _). apply (diff_end_ok rr n s nd); auto; [now apply increasing_NoDup|lia].
Qed.

Lemma D_exact s N n nd ys c k i : In s all_schemes -> enough_points s N -> n_col_to_n_nodes s N = Ok n ->
  node_points rr n s = Ok nd -> interpolates nd ys c -> length ys = n -> (i < n)%nat ->
  exists D, matrix_D_bary rr n s = Ok D /\ shaped n n D /\
    mget (mmul (mpow D k) (map (fun y => [y]) ys)) i 0 = Derive_n (peval c) k (vnth nd i) /\
    vsum (mrow i D) = 0.
Proof.
  intros H E En Ep I L Hi. destruct (nodes_ok s N n H E En) as (nd' & Ep' & S). rewrite Ep in Ep'. injection Ep' as <-.
  destruct S as (Ln & In & _). assert (ND := increasing_NoDup _ In).
  exists (Dmat nd). split; [now apply matrix_D_bary_ok|]. rewrite <- Ln. split; [apply Dmat_shaped|].
  assert (SX : shaped (length nd) 1 (map (fun y => [y]) ys)).
  { split; [rewrite map_length; lia|]. apply Forall_forall. intros r K. apply in_map_iff in K. now destruct K as (? & <- & _). }
  assert (C : mcol 0 (map (fun y => [y]) ys) = ys).
  { unfold mcol. rewrite map_map. rewrite <- (map_id ys) at 2. apply map_ext. reflexivity. }
  split.
  - rewrite (Dmat_pow nd _ 1 0 c k i ND ltac:(lia) SX ltac:(lia) ltac:(lia)) by now rewrite C.
    now rewrite Derive_n_peval.
  - apply Dmat_row_sum; [exact ND|lia].
Qed.
End Scheme.

Lemma unit_basis rr N s n kind x : In kind ["q"; "u"]%string ->
  (if (kind =? "q")%string then node_points rr N s else coll_points rr N s 2) = Ok x ->
  NoDup x -> length x = N -> (n < N)%nat ->
  exists c, (length c <= N)%nat /\
    (forall j, (j < N)%nat -> peval c (vnth x j) = if (j =? n)%nat then 1 else 0) /\
    forall t, ~ In t x -> unit_Lag_pol rr N s n kind t = Ok (Some (peval c t)).
Proof.
  intros K E ND L Hn. exists (lagr x n). split; [|split].
  - rewrite lagr_length; lia.
  - intros j Hj. rewrite lagr_at by (auto; lia). rewrite Nat.eqb_sym. reflexivity.
  - intros t I. now apply unit_off_node.
Qed.
Lemma unit_at_point rr N s n kind x t : In kind ["q"; "u"]%string ->
  (if (kind =? "q")%string then node_points rr N s else coll_points rr N s 2) = Ok x ->
  (n < N * N)%nat -> In t x -> unit_Lag_pol rr N s n kind t = Ok None.
Proof. apply unit_at_node. Qed.
Lemma lag_pol_kron ts j i : NoDup ts -> (j < length ts)%nat -> (i < length ts)%nat ->
  (length (lag_pol ts j) <= length ts)%nat /\
  peval (lag_pol ts j) (vnth ts i) = if (i =? j)%nat then 1 else 0.
Proof.
  intros ND Hj Hi. split; [now apply lag_pol_length|]. destruct (Nat.eqb_spec i j) as [->|D].
  - apply lag_pol_self.
  - apply lag_pol_other; [now apply nth_In|]. intros K. apply D.
    apply (proj1 (NoDup_nth ts 0) ND i j Hi Hj K).
Qed.
Lemma v_sum_common ts : NoDup ts -> (0 < length ts)%nat -> exists k, k <> 0 /\
  forall i, (i < length ts)%nat -> v_sum ts i * fold_right Rmult 1 (map (fun s => vnth ts i - s) (pop_at i ts)) = k.
Proof.
  intros ND L. exists (v_factor ts). split; [now apply v_factor_neq0|]. intros i Hi.
  rewrite v_sum_bweight by auto.
  assert (E : peval (nodal ts i) (vnth ts i) = fold_right Rmult 1 (map (fun s => vnth ts i - s) (pop_at i ts))).
  { unfold nodal. generalize (vnth ts i). intros x. induction (pop_at i ts) as [|a l IH]; [simpl; ring|].
    cbn [map fold_right]. rewrite <- IH, !peval_pfromroots. reflexivity. }
  rewrite <- E. unfold bweight. field. now apply nodal_self_neq0.
Qed.
Lemma vector_interpolator_common_point rr N1 N2 s1 s2 n kind x pts : In kind ["q"; "u"]%string ->
  (N1 <> N2 \/ s1 <> s2) ->
  (if (kind =? "q")%string then node_points rr N1 s1 else coll_points rr N1 s1 2) = Ok x ->
  (if (kind =? "q")%string then node_points rr N2 s2 else coll_points rr N2 s2 2) = Ok pts ->
  (0 < N1)%nat -> (n < length pts)%nat -> In (vnth pts n) x ->
  vector_interpolator rr N1 N2 s1 s2 n kind = Err ValueError.
Proof.
  intros K D E1 E2 L Hn I. unfold vector_interpolator. rewrite (proj2 (mem_In _ _) K). cbn [negb].
  assert (B : (N1 =? N2)%nat && (s1 =? s2)%string = false).
  { destruct (Nat.eqb_spec N1 N2); [|reflexivity]. destruct (String.eqb_spec s1 s2); [|reflexivity].
    destruct D; contradiction. }
  rewrite B, E2. cbn [rbind]. destruct (Nat.leb_spec (length pts) n); [lia|].
  destruct N1 as [|N1]; [lia|]. cbn [seq]. apply mapm_err.
  rewrite (unit_at_node rr (S N1) s1 0 kind x _ K E1 ltac:(simpl; lia) I). reflexivity.
Qed.
Open Scope vec_scope.
Lemma ex_velocity : residual_has_velocity 1 (fun x x_d u lam => x_d -v [vnth x 1; vnth u 0]).
Proof.
  intros [|a [|b [|? ?]]] [|c [|d [|? ?]]] u lam Lx Ld Z; try discriminate.
  unfold vnth, vsub in Z. simpl in Z. simpl. inversion Z as [|? ? Z1 _]. f_equal. lra.
Qed.
