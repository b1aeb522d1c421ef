(** Interpolation of pseudospectral solutions, Lagrange basis of a scheme,
    and the places where the code departs from the claims. *)
From Coq Require Import String.
From Coquelicot Require Import Coquelicot.
From Verif Require Import Prelude PreludeFacts Poly PolyFacts PolyInterp Mat MatFacts
  PwInterpModel PsModel JacobiFacts PsSpec PsPointsProofs PsBaryProofs PsNodesProofs PsProblemProofs PsApplyProofs.
Open Scope R_scope.
Open Scope list_scope.

(** ** Lagrange basis of a scheme (C22, C23) *)
Lemma existsb_in (x : vec) t :
  existsb (fun s => if Req_EM_T s t then true else false) x = true <-> In t x.
Proof.
  rewrite existsb_exists. split.
  - intros (a & I & K). destruct (Req_EM_T a t); [now subst|discriminate].
  - intros I. exists t. split; [exact I|]. now destruct (Req_EM_T t t).
Qed.
Lemma vsum_map2_div (l x : vec) t : length l = length x ->
  vsum (map2 Rdiv l (map (fun s => t - s) x)) = rsum (length x) (fun i => vnth l i / (t - vnth x i)).
Proof.
  intros Hl. rewrite vsum_rsum, map2_length, map_length, Hl, Nat.min_id. apply rsum_ext.
  intros i Hi. unfold vnth at 1. rewrite (nth_map2 _ _ _ _ 0 0) by (rewrite ?map_length; lia).
  rewrite (nth_map' _ _ _ 0) by exact Hi. reflexivity.
Qed.

(** The set the scheme's basis is built on. *)
Definition basis_points (rr : list R -> list R) (N : nat) (s kind : string) : Res vec :=
  if (kind =? "q")%string then node_points rr N s else coll_points rr N s 2.

Lemma unit_at_node rr N s n kind x t : In kind ["q"; "u"]%string -> basis_points rr N s kind = Ok x ->
  (n < N * N)%nat -> In t x -> unit_Lag_pol rr N s n kind t = Ok None.
Proof.
  intros K E Hn I. unfold unit_Lag_pol. rewrite (proj2 (mem_In _ _) K). cbn [negb].
  unfold basis_points in E. rewrite E. cbn [rbind].
  destruct (Nat.leb_spec (N * N) n); [lia|]. now rewrite (proj2 (existsb_in x t) I).
Qed.
Lemma unit_off_node rr N s n kind x t : In kind ["q"; "u"]%string -> basis_points rr N s kind = Ok x ->
  NoDup x -> length x = N -> (n < N)%nat -> ~ In t x ->
  unit_Lag_pol rr N s n kind t = Ok (Some (peval (lagr x n) t)).
Proof.
  intros K E ND L Hn I. unfold unit_Lag_pol. rewrite (proj2 (mem_In _ _) K). cbn [negb].
  unfold basis_points in E. rewrite E. cbn [rbind].
  destruct (Nat.leb_spec (N * N) n) as [Q|Q]; [nia|].
  destruct (existsb _ x) eqn:B; [apply existsb_in in B; contradiction|]. do 2 f_equal.
  assert (IN : interpolates x (map (fun i => if (n =? i)%nat then 1 else 0) (seq 0 N)) (lagr x n)).
  { split; [rewrite lagr_length by lia; lia|]. intros i Hi. rewrite lagr_at by (auto; lia).
    rewrite vnth_map_seq by lia. reflexivity. }
  assert (PN : (0 < length x)%nat) by lia.
  rewrite (barycentric x _ (lagr x n) (v_sum x) (v_factor x) t ND IN PN
    (v_factor_neq0 x ND PN) (fun i Hi => v_sum_bweight x i ND Hi) I).
  assert (Lv : length (map (v_sum x) (seq 0 N)) = length x) by (rewrite map_length, seq_length; lia).
  f_equal.
  - rewrite map_map. rewrite vsum_map_seq.
    rewrite (rsum_ext N _ (fun r => if (r =? 0)%nat then
       rsum (length x) (fun i => v_sum x i * vnth (map (fun i0 => if (n =? i0)%nat then 1 else 0) (seq 0 N)) i / (t - vnth x i)) else 0)).
    + rewrite rsum_delta by lia. reflexivity.
    + intros r Hr. rewrite vsum_map2_div by (rewrite vmul_length, !map_length, !seq_length; lia).
      destruct (Nat.eqb_spec r 0) as [->|Nr].
      * apply rsum_ext. intros i Hi. rewrite vnth_vmul by (rewrite !map_length, !seq_length; lia).
        rewrite !vnth_map_seq by lia. cbn [Nat.mul Nat.add]. now rewrite Nat.eqb_sym.
      * rewrite rsum_zero; [reflexivity|]. intros i Hi.
        rewrite vnth_vmul by (rewrite !map_length, !seq_length; lia).
        rewrite !vnth_map_seq by lia. cbn [Nat.add].
        destruct (Nat.eqb_spec (r * N + i) n); [nia|]. unfold Rdiv. ring.
  - rewrite vsum_map2_div by exact Lv. apply rsum_ext. intros i Hi. now rewrite vnth_map_seq by lia.
Qed.

Lemma mapm_some {B} (f : nat -> Res B) (g : nat -> B) l : (forall i, In i l -> f i = Ok (g i)) -> mapm f l = Ok (map g l).
Proof. intros H. rewrite (mapm_ext f (fun i => Ok (g i))) by exact H. apply mapm_Ok. Qed.

Lemma vector_interpolator_ok rr N1 N2 s1 s2 n kind x pts ys c : In kind ["q"; "u"]%string ->
  (N1 <> N2 \/ s1 <> s2) -> basis_points rr N1 s1 kind = Ok x -> basis_points rr N2 s2 kind = Ok pts ->
  NoDup x -> length x = N1 -> (n < length pts)%nat -> ~ In (vnth pts n) x -> interpolates x ys c -> length ys = N1 ->
  exists v, vector_interpolator rr N1 N2 s1 s2 n kind = Ok v /\ length v = N1 /\ vdot v ys = peval c (vnth pts n).
Proof.
  intros K D E1 E2 ND L Hn I IN Ly. unfold vector_interpolator.
  rewrite (proj2 (mem_In _ _) K). cbn [negb].
  assert (B : (N1 =? N2)%nat && (s1 =? s2)%string = false).
  { destruct (Nat.eqb_spec N1 N2); [|reflexivity]. destruct (String.eqb_spec s1 s2); [|reflexivity].
    destruct D; contradiction. }
  rewrite B. unfold basis_points in E2. rewrite E2. cbn [rbind].
  destruct (Nat.leb_spec (length pts) n); [lia|].
  exists (map (fun ii => peval (lagr x ii) (vnth pts n)) (seq 0 N1)). split; [|split].
  - apply mapm_some. intros i Hi. apply in_seq in Hi.
    rewrite (unit_off_node rr N1 s1 i kind x) by (auto; lia). reflexivity.
  - now rewrite map_length, seq_length.
  - rewrite (interp_lagr x ys c ND IN). rewrite L. unfold vdot. rewrite vsum_rsum, vmul_length, map_length, seq_length, Ly, Nat.min_id.
    apply rsum_ext. intros i Hi. rewrite vnth_vmul by (rewrite map_length, seq_length; lia).
    rewrite vnth_map_seq by exact Hi. cbn [Nat.add]. ring.
Qed.

(** ** Interpolation in time *)
Lemma t_to_tau_back t t0 tf : t0 <> tf -> tau_to_t (t_to_tau t t0 tf) t0 tf = t.
Proof. intros H. unfold tau_to_t, t_to_tau. field. lra. Qed.
Lemma tau_to_t_back p t0 tf : t0 <> tf -> t_to_tau (tau_to_t p t0 tf) t0 tf = p.
Proof. intros H. unfold tau_to_t, t_to_tau. field. lra. Qed.

Section Pol.
Variables (taus : vec) (t0 tf : R).
Hypothesis ND : NoDup taus.
Hypothesis NE : (0 < length taus)%nat.
Hypothesis H0 : t0 <> tf.

Lemma bary_time X m P t : shaped (length taus) m X -> length P = m ->
  traj_through (tau_to_t_points taus t0 tf) X P ->
  bary_poly_2d taus X (t_to_tau t t0 tf) = state_at P t.
Proof.
  intros S L T.
  rewrite (bary_poly_2d_correct taus X m (map (in_tau t0 tf) P)); auto.
  - unfold state_at. rewrite map_map. apply map_ext. intros c. now rewrite peval_in_tau, t_to_tau_back.
  - now rewrite map_length.
  - intros j Hj. rewrite map_length in Hj. rewrite (nth_map' _ _ _ []) by exact Hj.
    apply interpolates_in_tau. now apply T.
Qed.
Lemma D_traj X m P : shaped (length taus) m X -> length P = m ->
  traj_through (tau_to_t_points taus t0 tf) X P ->
  shaped (length taus) m (mscale (2 / (tf - t0)) (mmul (Dmat taus) X)) /\
  traj_through (tau_to_t_points taus t0 tf) (mscale (2 / (tf - t0)) (mmul (Dmat taus) X)) (map pderiv P).
Proof.
  intros S L T.
  assert (SM : shaped (length taus) m (mscale (2 / (tf - t0)) (mmul (Dmat taus) X))).
  { apply mscale_shaped, (mmul_shaped _ (length taus)); auto using Dmat_shaped. }
  split; [exact SM|].
  apply (traj_of_rows _ _ (length taus) m); auto.
  - now rewrite times_length.
  - now rewrite map_length.
  - intros c I. apply in_map_iff in I. destruct I as (q & <- & I). rewrite pderiv_length.
    pose proof (traj_bound _ _ _ _ T I). rewrite times_length in *. lia.
  - intros i Hi. rewrite (D_rows taus t0 tf ND NE H0 X m P i) by auto.
    now rewrite rate_as_state, vnth_times.
Qed.
Lemma D_pow_traj X m P k : shaped (length taus) m X -> length P = m ->
  traj_through (tau_to_t_points taus t0 tf) X P ->
  shaped (length taus) m (mscale ((2 / (tf - t0)) ^ k) (mmul (mpow (Dmat taus) k) X)) /\
  traj_through (tau_to_t_points taus t0 tf) (mscale ((2 / (tf - t0)) ^ k) (mmul (mpow (Dmat taus) k) X)) (map (pderiv_n k) P).
Proof.
  intros S L T.
  assert (SM : shaped (length taus) m (mscale ((2 / (tf - t0)) ^ k) (mmul (mpow (Dmat taus) k) X))).
  { apply mscale_shaped, (mmul_shaped _ (length taus)); auto using mpow_shaped, Dmat_shaped. }
  split; [exact SM|].
  intros j Hj. rewrite map_length in Hj. rewrite (nth_map' _ _ _ []) by exact Hj. split.
  - rewrite pderiv_n_length. pose proof (proj1 (T j Hj)). lia.
  - intros i Hi. rewrite times_length in Hi. rewrite vnth_mcol by (rewrite (shaped_length _ _ _ SM); exact Hi).
    rewrite mget_mscale.
    rewrite (Dmat_pow taus X m j (in_tau t0 tf (nth j P [])) k i); auto; try lia.
    + unfold in_tau. rewrite peval_pderiv_n_pcomp_affine. rewrite vnth_times, tau_to_t_affine by exact Hi.
      rewrite <- Rmult_assoc, <- Rpow_mult_distr.
      replace (2 / (tf - t0) * ((tf - t0) / 2)) with 1 by (field; lra). rewrite pow1. ring.
    + apply interpolates_in_tau. now apply T.
Qed.
End Pol.

(** Second derivatives of a polynomial trajectory, and the k-th ones. *)
Lemma rate_n_state k P t : state_at (map (pderiv_n k) P) t = rate_n_at k P t.
Proof. unfold state_at, rate_n_at. rewrite map_map. apply map_ext. intros c. now rewrite Derive_n_peval. Qed.
Lemma rate2_state P t : state_at (map pderiv (map pderiv P)) t = rate_n_at 2 P t.
Proof. rewrite <- rate_n_state. unfold state_at. rewrite !map_map. reflexivity. Qed.

Section Scheme.
Variable rr : list R -> list R.
Hypothesis OK : real_roots_ok rr.

(** Node and collocation times of a solution with [n_coll] collocation points. *)
Lemma interp_pol_ok s n t0 t1 qq vv uu m1 m3 Q V U nd cl t :
  In s all_schemes -> enough_points s n -> t0 <> t1 ->
  shaped (nodes_of s n) m1 qq -> shaped (nodes_of s n) m1 vv -> shaped n m3 uu ->
  node_points rr (nodes_of s n) s = Ok nd -> coll_points rr n s 2 = Ok cl ->
  length Q = m1 -> length V = m1 -> length U = m3 ->
  traj_through (tau_to_t_points nd t0 t1) qq Q -> traj_through (tau_to_t_points nd t0 t1) vv V ->
  traj_through (tau_to_t_points cl t0 t1) uu U ->
  interpolations_pseudospectral rr qq vv uu s t0 t1 "pol" "pol" t =
    Ok (state_at Q t, rate_at Q t, state_at V t, rate_at V t, rate_n_at 2 Q t, state_at U t).
Proof.
  intros H E T Sq Sv Su En Ec LQ LV LU TQ TV TU.
  destruct (nodes_shape rr OK s n H E) as (c & S & Ec' & _ & En').
  rewrite En in En'. injection En' as ->. rewrite Ec in Ec'. injection Ec' as ->.
  assert (Ln : length (with_ends (nstarts s) (nends s) c) = nodes_of s n).
  { rewrite with_ends_length. unfold nodes_of. destruct S as [-> _]. reflexivity. }
  assert (Lc : length (with_ends (starts s) (ends s) c) = n).
  { rewrite with_ends_length. destruct S as [-> _]. now apply enough_length. }
  assert (PN := nodes_of_pos s n H E).
  assert (Pn : (0 < n)%nat) by (destruct E; lia).
  assert (N1 := with_ends_NoDup (nstarts s) (nends s) _ _ S).
  assert (N2 := with_ends_NoDup (starts s) (ends s) _ _ S).
  unfold interpolations_pseudospectral. cbn [String.eqb Ascii.eqb Bool.eqb].
  unfold get_pol_u, get_pol_x. rewrite (shaped_length _ _ _ Su), (shaped_length _ _ _ Sq).
  rewrite Ec, En. cbn [rbind]. rewrite (matrix_D_bary_ok rr _ _ _ En Ln). cbn [rbind].
  set (nd := with_ends (nstarts s) (nends s) c) in *. set (cl := with_ends (starts s) (ends s) c) in *.
  rewrite <- Ln in Sq, Sv, PN. rewrite <- Lc in Su, Pn.
  destruct (D_traj nd t0 t1 N1 PN T qq m1 Q Sq LQ TQ) as [S1 T1].
  destruct (D_traj nd t0 t1 N1 PN T vv m1 V Sv LV TV) as [S2 T2].
  destruct (D_traj nd t0 t1 N1 PN T _ m1 (map pderiv Q) S1 ltac:(now rewrite map_length) T1) as [S3 T3].
  rewrite (bary_time cl t0 t1 N2 Pn T uu m3 U t Su LU TU).
  rewrite (bary_time nd t0 t1 N1 PN T qq m1 Q t Sq LQ TQ).
  rewrite (bary_time nd t0 t1 N1 PN T vv m1 V t Sv LV TV).
  rewrite (bary_time nd t0 t1 N1 PN T _ m1 (map pderiv Q) t S1 ltac:(now rewrite map_length) T1).
  rewrite (bary_time nd t0 t1 N1 PN T _ m1 (map pderiv V) t S2 ltac:(now rewrite map_length) T2).
  rewrite (bary_time nd t0 t1 N1 PN T _ m1 (map pderiv (map pderiv Q)) t S3 ltac:(now rewrite !map_length) T3).
  now rewrite rate2_state, !rate_as_state.
Qed.

Lemma interp_deriv_pol_ok s n t0 t1 xx m P nd k t :
  In s all_schemes -> enough_points s n -> t0 <> t1 -> shaped (nodes_of s n) m xx ->
  node_points rr (nodes_of s n) s = Ok nd -> length P = m ->
  traj_through (tau_to_t_points nd t0 t1) xx P ->
  interpolations_deriv_pseudospectral rr xx s k t0 t1 "pol" t = Ok (rate_n_at k P t).
Proof.
  intros H E T Sx En LP TP.
  destruct (nodes_shape rr OK s n H E) as (c & S & _ & _ & En').
  rewrite En in En'. injection En' as ->.
  assert (Ln : length (with_ends (nstarts s) (nends s) c) = nodes_of s n).
  { rewrite with_ends_length. unfold nodes_of. destruct S as [-> _]. reflexivity. }
  assert (PN := nodes_of_pos s n H E).
  assert (N1 := with_ends_NoDup (nstarts s) (nends s) _ _ S).
  unfold interpolations_deriv_pseudospectral. rewrite (shaped_length _ _ _ Sx), En. cbn [rbind].
  cbn [String.eqb Ascii.eqb Bool.eqb]. rewrite (matrix_D_bary_ok rr _ _ _ En Ln). cbn [rbind].
  set (nd := with_ends (nstarts s) (nends s) c) in *. rewrite <- Ln in Sx, PN.
  destruct (D_pow_traj nd t0 t1 N1 PN T xx m P k Sx LP TP) as [S1 T1].
  rewrite (bary_time nd t0 t1 N1 PN T _ m (map (pderiv_n k) P) t S1 ltac:(now rewrite map_length) T1).
  now rewrite rate_n_state.
Qed.

(** ** Controls at the ends *)
Lemma coll_points_order s N o1 o2 : ~ In s jacobi_schemes -> coll_points rr N s o1 = coll_points rr N s o2.
Proof.
  intros H. unfold coll_points.
  destruct (mem s ["JG"; "JG_inv"; "JG2"]%string) eqn:M1.
  { exfalso. apply H. apply mem_In in M1. cbv in M1. cbv. tauto. }
  destruct (s =? "JGR")%string eqn:M2; [exfalso; apply H; apply String.eqb_eq in M2; subst; cbv; tauto|].
  destruct (s =? "JGR_inv")%string eqn:M3; [exfalso; apply H; apply String.eqb_eq in M3; subst; cbv; tauto|].
  destruct (s =? "JGL")%string eqn:M4; [exfalso; apply H; apply String.eqb_eq in M4; subst; cbv; tauto|].
  reflexivity.
Qed.
Lemma mrow_first_state taus t0 tf X m P r c : taus = with_ends true r c -> shaped (length taus) m X -> length P = m ->
  traj_through (tau_to_t_points taus t0 tf) X P -> mrow 0 X = state_at P t0.
Proof.
  intros -> S L T.
  assert (PL : (0 < length (with_ends true r c))%nat) by (rewrite with_ends_length; simpl; lia).
  rewrite (traj_row _ _ _ _ _ 0 S (times_length _ t0 tf) L T PL).
  now rewrite vnth_times, with_ends_first, tau_start by exact PL.
Qed.
Lemma mrow_last_state taus t0 tf X m P l c : taus = with_ends l true c -> shaped (length taus) m X -> length P = m ->
  traj_through (tau_to_t_points taus t0 tf) X P -> mrow (length X - 1) X = state_at P tf.
Proof.
  intros -> S L T.
  assert (PL : (0 < length (with_ends l true c))%nat) by (rewrite with_ends_length; simpl; lia).
  rewrite (shaped_length _ _ _ S).
  rewrite (traj_row _ _ _ _ _ (length (with_ends l true c) - 1) S (times_length _ t0 tf) L T) by lia.
  now rewrite vnth_times, with_ends_last, tau_end by lia.
Qed.
Lemma mem_starts2 s : In s all_schemes -> mem s (radau_like ++ lobato_like ++ ["D2"%string]) = starts s.
Proof. intros H. scheme_cases H; rewrite <- ?H; reflexivity. Qed.
Lemma mem_ends2 s : In s all_schemes -> mem s (radau_inv ++ lobato_like ++ ["D2"%string]) = ends s.
Proof. intros H. scheme_cases H; rewrite <- ?H; reflexivity. Qed.

Lemma u_ends_ok p cl u m U : In (ps_scheme p) all_schemes -> enough_points (ps_scheme p) (ps_n_coll p) ->
  ps_t_start p <> ps_t_end p ->
  (In (ps_scheme p) jacobi_schemes -> ps_order p = 2%nat) ->
  coll_points rr (ps_n_coll p) (ps_scheme p) 2 = Ok cl -> shaped (ps_n_coll p) m u -> length U = m ->
  traj_through (t_of p cl) u U ->
  u_s rr p u = Ok (state_at U (ps_t_start p)) /\ u_e rr p u = Ok (state_at U (ps_t_end p)).
Proof.
  intros H E T J Ec Su LU TU.
  destruct (nodes_shape rr OK _ _ H E) as (c & S & Ec' & _ & _).
  rewrite Ec in Ec'. injection Ec' as ->.
  set (s := ps_scheme p) in *. set (n := ps_n_coll p) in *.
  assert (Lc : length (with_ends (starts s) (ends s) c) = n).
  { rewrite with_ends_length. destruct S as [-> _]. now apply enough_length. }
  assert (Pn : (0 < n)%nat) by (destruct E; lia).
  assert (EO : coll_points rr n s (ps_order p) = coll_points rr n s 2).
  { destruct (in_dec string_dec s jacobi_schemes) as [I|I]; [now rewrite J|now apply coll_points_order]. }
  assert (Su' := Su). rewrite <- Lc in Su', Pn.
  split.
  - unfold u_s. fold s n. rewrite mem_starts2 by exact H. destruct (starts s) eqn:St.
    + f_equal. eapply mrow_first_state; [reflexivity|exact Su'|exact LU|exact TU].
    + destruct (extreme_u_start rr OK s n (ps_order p) H E) as (ts & f & Et & Ef & F).
      rewrite EO, Ec, ?St in Et. injection Et as <-. rewrite Ef. cbn [rbind].
      rewrite (run_cols_ok _ (ps_t_start p) (ps_t_end p) Pn u m U _ f Su' LU TU F). now rewrite tau_start.
  - unfold u_e. fold s n. rewrite mem_ends2 by exact H. destruct (ends s) eqn:St.
    + f_equal. eapply mrow_last_state; [reflexivity|exact Su'|exact LU|exact TU].
    + destruct (extreme_u_end rr OK s n (ps_order p) H E) as (ts & f & Et & Ef & F).
      rewrite EO, Ec, ?St in Et. injection Et as <-. rewrite Ef. cbn [rbind].
      rewrite (run_cols_ok _ (ps_t_start p) (ps_t_end p) Pn u m U _ f Su' LU TU F). now rewrite tau_end.
Qed.
End Scheme.
