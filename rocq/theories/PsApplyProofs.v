(** The constraints of the pseudospectral problem mean that a polynomial
    trajectory obeys the dynamics at the collocation times (C26). *)
From Coq Require Import String.
From Coquelicot Require Import Coquelicot.
From Verif Require Import Prelude PreludeFacts Poly PolyFacts PolyInterp Mat MatFacts
  PwInterpModel PsModel JacobiFacts PsSpec PsPointsProofs PsBaryProofs PsNodesProofs PsProblemProofs.
Open Scope R_scope.
Open Scope list_scope.

Lemma tau_start t0 tf : tau_to_t (-1) t0 tf = t0.
Proof. unfold tau_to_t. field. Qed.
Lemma tau_end t0 tf : tau_to_t 1 t0 tf = tf.
Proof. unfold tau_to_t. field. Qed.
Lemma tau_to_t_inj t0 tf a b : t0 <> tf -> tau_to_t a t0 tf = tau_to_t b t0 tf -> a = b.
Proof.
  intros H. rewrite !tau_to_t_affine. intros E.
  assert ((tf - t0) / 2 * (a - b) = 0) by lra.
  apply Rmult_integral in H0. destruct H0; lra.
Qed.
Lemma times_NoDup taus t0 tf : t0 <> tf -> NoDup taus -> NoDup (tau_to_t_points taus t0 tf).
Proof.
  intros H N. unfold tau_to_t_points. apply FinFun.Injective_map_NoDup; [|exact N].
  intros a b E. now apply (tau_to_t_inj t0 tf).
Qed.
Lemma times_length taus t0 tf : length (tau_to_t_points taus t0 tf) = length taus.
Proof. apply map_length. Qed.

Lemma nth_firstn_lt {A} (l : list A) n i d : (i < n)%nat -> nth i (firstn n l) d = nth i l d.
Proof. revert n i. induction l; intros [|n] [|i] H; simpl; auto; try lia. apply IHl. lia. Qed.
Lemma nth_skipn' {A} (l : list A) n i d : nth i (skipn n l) d = nth (n + i) l d.
Proof. revert n. induction l; intros [|n]; simpl; auto. destruct i; reflexivity. Qed.

Lemma mrow_take X a b i : (i < length X - a - b)%nat -> mrow i (take (a, b) X) = mrow (a + i) X.
Proof. intros H. unfold take, mrow. cbn [fst snd]. rewrite nth_firstn_lt by exact H. apply nth_skipn'. Qed.
Lemma take_length {A} (l : list A) a b : length (take (a, b) l) = (length l - a - b)%nat.
Proof. unfold take. cbn [fst snd]. rewrite firstn_length, skipn_length. lia. Qed.
Lemma take_shaped n m X a b : shaped n m X -> shaped (n - a - b) m (take (a, b) X).
Proof.
  intros [L F]. split; [rewrite take_length; lia|]. apply Forall_forall. intros r I.
  rewrite Forall_forall in F. apply F. unfold take in I. cbn [fst snd] in I.
  rewrite <- (firstn_skipn a X). apply in_or_app. right.
  rewrite <- (firstn_skipn (length X - a - b) (skipn a X)). apply in_or_app. now left.
Qed.
Lemma mrow_lastcols k X i : (i < length X)%nat -> mrow i (mlastcols k X) = lastn k (mrow i X).
Proof. intros H. unfold mrow, mlastcols. now rewrite (nth_map' _ _ _ []). Qed.
Lemma mrow_mcols lo hi X i : (i < length X)%nat -> mrow i (mcols lo hi X) = slice lo hi (mrow i X).
Proof. intros H. unfold mrow, mcols. now rewrite (nth_map' _ _ _ []). Qed.
Lemma mlastcols_cols n m k X : shaped n m X -> (0 < k)%nat -> (k <= m)%nat -> mlastcols k X = mcols (m - k) m X.
Proof.
  intros [L F] H1 H2. unfold mlastcols, mcols. apply map_ext_in. intros r I.
  rewrite Forall_forall in F. unfold lastn, slice. destruct (Nat.eqb_spec k 0); [lia|].
  rewrite (F r I). symmetry. apply firstn_all2. rewrite skipn_length, (F r I). lia.
Qed.

(** Interpolating trajectory of a matrix of values. *)
Definition interp_traj (ts : vec) (m : nat) (X : mat) : list (list R) :=
  map (fun j => lagr_interp ts (mcol j X)) (seq 0 m).
Lemma interp_traj_length ts m X : length (interp_traj ts m X) = m.
Proof. unfold interp_traj. now rewrite map_length, seq_length. Qed.
Lemma interp_traj_ok ts m X : NoDup ts -> traj_through ts X (interp_traj ts m X).
Proof.
  intros N j H. rewrite interp_traj_length in H. unfold interp_traj.
  rewrite (nth_map' _ _ _ 0%nat) by now rewrite seq_length. rewrite seq_nth by exact H.
  now apply lagr_interp_ok.
Qed.
Lemma traj_cols ts X P lo hi : traj_through ts X P -> (hi <= length P)%nat ->
  traj_through ts (mcols lo hi X) (slice lo hi P).
Proof.
  intros T H j Hj. unfold slice in Hj. rewrite firstn_length, skipn_length in Hj.
  unfold slice. rewrite nth_firstn_lt, nth_skipn' by lia.
  replace (mcol j (mcols lo hi X)) with (mcol (lo + j) X).
  - apply T. lia.
  - unfold mcol, mcols. rewrite map_map. apply map_ext. intros r. unfold slice.
    rewrite vnth_firstn. destruct (Nat.ltb_spec j (hi - lo)); [|lia]. now rewrite vnth_skipn.
Qed.
Lemma traj_of_rows ts X n m P : shaped n m X -> length ts = n -> length P = m ->
  (forall c, In c P -> (length c <= n)%nat) ->
  (forall i, (i < n)%nat -> mrow i X = state_at P (vnth ts i)) -> traj_through ts X P.
Proof.
  intros S L LP B H j Hj. split.
  - rewrite L. apply B. now apply nth_In.
  - intros i Hi. rewrite vnth_mcol by (rewrite (shaped_length _ _ _ S); lia).
    unfold mget. rewrite H by lia. now rewrite vnth_state_at.
Qed.
Lemma traj_bound ts X P c : traj_through ts X P -> In c P -> (length c <= length ts)%nat.
Proof. intros T I. destruct (In_nth _ _ [] I) as (j & Hj & <-). now apply T. Qed.
Lemma traj_unique ts X P Q : NoDup ts -> length P = length Q -> traj_through ts X P -> traj_through ts X Q ->
  forall t, state_at P t = state_at Q t /\ rate_at P t = rate_at Q t.
Proof.
  intros N L TP TQ t.
  assert (E : forall j, (j < length P)%nat -> forall x, peval (nth j P []) x = peval (nth j Q []) x).
  { intros j Hj. apply (interpolates_unique ts (mcol j X)); [exact N|apply TP; lia|apply TQ; lia]. }
  split; apply vec_ext; rewrite ?state_at_length, ?rate_at_length; auto; intros j Hj.
  - rewrite !vnth_state_at by lia. now apply E.
  - rewrite !vnth_rate_at by lia. apply peval_pderiv_ext. now apply E.
Qed.
Lemma state_at_slice P lo hi t : state_at (slice lo hi P) t = slice lo hi (state_at P t).
Proof. unfold state_at, slice. now rewrite <- firstn_map, skipn_map. Qed.
Lemma rate_at_slice P lo hi t : rate_at (slice lo hi P) t = slice lo hi (rate_at P t).
Proof. unfold rate_at, slice. now rewrite <- firstn_map, skipn_map. Qed.
Lemma rate_as_state P t : state_at (map pderiv P) t = rate_at P t.
Proof. unfold state_at, rate_at. rewrite map_map. apply map_ext. intros c. now rewrite Derive_peval. Qed.

(** A problem the theorem is about. *)
Definition ps_valid (p : ps_problem) : Prop :=
  In (ps_scheme p) all_schemes /\ enough_points (ps_scheme p) (ps_n_coll p) /\
  (1 <= ps_order p)%nat /\ (1 <= ps_n_q p)%nat /\ ps_t_start p <> ps_t_end p /\
  (In (ps_scheme p) second_order_schemes -> ps_order p = 2%nat) /\
  (In (ps_scheme p) (gauss_schemes ++ gauss_inv_schemes) -> (ps_order p <= 2)%nat).

Section Apply.
Variable rr : list R -> list R.
Hypothesis OK : real_roots_ok rr.
Variable dyn : vec -> vec -> vec -> vec -> vec.

(** The constraints, with the extrapolations replaced by the polynomials. *)
Definition constraints_of (p : ps_problem) (s : ps_setup) (w : ps_values) (P PH : list (list R)) : list constr :=
  let scheme := ps_scheme p in
  let x := pv_x w in let x_d := pv_x_d w in
  let x_node := take (pset_node s) x in
  let x_d_node := take (pset_node s) x_d in
  let k := 2 / (ps_t_end p - ps_t_start p) in
  let cs1 :=
    if mem scheme second_order_schemes then
      [(mcols (ps_n_q p) (2 * ps_n_q p) x_node, mscale k (mmul (pset_D s) (mcols 0 (ps_n_q p) x_node)));
       (mlastcols (ps_n_q p) x_d_node, mscale k (mmul (pset_D s) (mcols (ps_n_q p) (2 * ps_n_q p) x_node)))]
    else [(x_d_node, mscale k (mmul (pset_D s) x_node))] in
  let hi := mlastcols (ps_n_q p) x_d in
  let cs2 := if negb (nstarts scheme) then
      [([mrow 0 x], [state_at P (ps_t_start p)]); ([mrow 0 hi], [state_at PH (ps_t_start p)])] else [] in
  let cs3 := if negb (nends scheme) then
      [([mrow (length x - 1) x], [state_at P (ps_t_end p)]);
       ([mrow (length x - 1) hi], [state_at PH (ps_t_end p)])] else [] in
  let i0 := (1 - b2n (starts scheme))%nat in
  let cs4 := map (fun ii =>
      let r := dyn (mrow (i0 + ii) x) (mrow (i0 + ii) x_d) (mrow ii (pv_u w)) (mrow ii (pv_lam w)) in
      ([r], [map (fun _ => 0) r])) (seq 0 (ps_n_coll p)) in
  cs1 ++ cs2 ++ cs3 ++ cs4.

Lemma apply_shape p w : ps_valid p ->
  exists c,
    inner_set (ps_n_coll p - b2n (starts (ps_scheme p)) - b2n (ends (ps_scheme p))) c /\
    let taus := with_ends (nstarts (ps_scheme p)) (nends (ps_scheme p)) c in
    let s := {| pset_n_nodes := length taus; pset_n_arr := 2 + length c; pset_D := Dmat taus;
      pset_tau := with_ends true true c; pset_tau_node := taus;
      pset_tau_col := with_ends (starts (ps_scheme p)) (ends (ps_scheme p)) c;
      pset_node := (1 - b2n (nstarts (ps_scheme p)), 1 - b2n (nends (ps_scheme p)))%nat |} in
    opti_setup rr p = Ok s /\ (0 < length taus)%nat /\
    (shaped (pset_n_arr s) (ps_order p * ps_n_q p) (pv_x w) ->
     shaped (pset_n_arr s) (ps_order p * ps_n_q p) (pv_x_d w) ->
     forall P PH, length P = (ps_order p * ps_n_q p)%nat -> length PH = ps_n_q p ->
       traj_through (t_of p taus) (take (pset_node s) (pv_x w)) P ->
       traj_through (t_of p taus) (mlastcols (ps_n_q p) (take (pset_node s) (pv_x_d w))) PH ->
       apply_scheme rr dyn p w = Ok (constraints_of p s w P PH)).
Proof.
  intros (H & E & O1 & Q1 & T & O2 & O3).
  destruct (setup_shape rr OK p H E O2) as (c & S & Ec & Ep & L & Es).
  exists c. split; [exact S|]. intros taus s. subst taus.
  assert (PL : (0 < length (with_ends (nstarts (ps_scheme p)) (nends (ps_scheme p)) c))%nat).
  { rewrite L. now apply nodes_of_pos. }
  split; [rewrite Es; subst s; rewrite L; reflexivity|]. split; [exact PL|].
  intros Sx Sd P PH LP LH TP TH.
  assert (ND := with_ends_NoDup (nstarts (ps_scheme p)) (nends (ps_scheme p)) _ _ S).
  unfold apply_scheme. rewrite Es. cbn [rbind pset_n_nodes pset_n_arr pset_D pset_tau pset_tau_node pset_tau_col pset_node].
  change (pset_n_arr s) with (2 + length c)%nat in *.
  change (pset_node s) with (1 - b2n (nstarts (ps_scheme p)), 1 - b2n (nends (ps_scheme p)))%nat in *.
  assert (Qo : forall x x_d, q_and_der p x x_d (ps_order p) = mlastcols (ps_n_q p) x_d).
  { intros. unfold q_and_der. now rewrite Nat.ltb_irrefl. }
  rewrite !Qo.
  set (xn := take (1 - b2n (nstarts (ps_scheme p)), 1 - b2n (nends (ps_scheme p)))%nat (pv_x w)) in *.
  set (dn := take (1 - b2n (nstarts (ps_scheme p)), 1 - b2n (nends (ps_scheme p)))%nat (pv_x_d w)) in *.
  assert (NL : (2 + length c - (1 - b2n (nstarts (ps_scheme p))) - (1 - b2n (nends (ps_scheme p))))%nat
     = length (with_ends (nstarts (ps_scheme p)) (nends (ps_scheme p)) c)).
  { rewrite with_ends_length. destruct (nstarts _), (nends _); simpl; lia. }
  assert (Sxn : shaped (length (with_ends (nstarts (ps_scheme p)) (nends (ps_scheme p)) c)) (ps_order p * ps_n_q p) xn).
  { rewrite <- NL. now apply take_shaped. }
  assert (Sdn : shaped (length (with_ends (nstarts (ps_scheme p)) (nends (ps_scheme p)) c)) (ps_order p * ps_n_q p) dn).
  { rewrite <- NL. now apply take_shaped. }
  assert (Shn : shaped (length (with_ends (nstarts (ps_scheme p)) (nends (ps_scheme p)) c)) (ps_n_q p) (mlastcols (ps_n_q p) dn)).
  { apply (mlastcols_shaped _ (ps_order p * ps_n_q p)); [exact Sdn|lia|nia]. }
  change (mem (ps_scheme p) gauss_inv) with (mem (ps_scheme p) gauss_inv_schemes).
  change (mem (ps_scheme p) gauss_like) with (mem (ps_scheme p) gauss_schemes).
  unfold constraints_of. cbn [pset_n_nodes pset_n_arr pset_D pset_tau pset_tau_node pset_tau_col pset_node].
  fold xn dn.
  assert (I0 : (if mem (ps_scheme p) (lobato_like ++ radau_like ++ ["D2"%string]) then 0%nat else 1%nat)
    = (1 - b2n (starts (ps_scheme p)))%nat).
  { rewrite mem_starts by exact H. now destruct (starts (ps_scheme p)). }
  assert (X2 : forall A B : list constr, A = B -> (do cs2 <- Ok A; do cs3 <- Ok B; Ok (cs2 ++ cs3)) = Ok (A ++ B)) by reflexivity.
  clear X2.
  set (R2 := if mem (ps_scheme p) gauss_inv_schemes then _ else _).
  assert (E2 : R2 = Ok (if negb (nstarts (ps_scheme p)) then
      [([mrow 0 (pv_x w)], [state_at P (ps_t_start p)]);
       ([mrow 0 (mlastcols (ps_n_q p) (pv_x_d w))], [state_at PH (ps_t_start p)])] else [])).
  { unfold R2. unfold nstarts at 1. rewrite Bool.negb_involutive.
    destruct (mem (ps_scheme p) gauss_inv_schemes) eqn:M; [|reflexivity].
    pose proof (proj1 (mem_In _ _) M) as M'.
    destruct (extreme_x_start rr OK (ps_scheme p) (ps_n_coll p) (ps_order p) H E) as (ts & f & Et & Ef & F).
    { intros _. apply O3. apply in_or_app. now right. }
    rewrite Ep in Et. injection Et as <-. rewrite Ef. cbn [rbind].
    rewrite (run_cols_ok _ (ps_t_start p) (ps_t_end p) PL xn _ P _ f Sxn LP TP F). cbn [rbind].
    rewrite (run_cols_ok _ (ps_t_start p) (ps_t_end p) PL _ _ PH _ f Shn LH TH F). cbn [rbind].
    rewrite tau_start. reflexivity. }
  rewrite E2. cbn [rbind].
  set (R3 := if mem (ps_scheme p) gauss_schemes then _ else _).
  assert (E3 : R3 = Ok (if negb (nends (ps_scheme p)) then
      [([mrow (length (pv_x w) - 1) (pv_x w)], [state_at P (ps_t_end p)]);
       ([mrow (length (pv_x w) - 1) (mlastcols (ps_n_q p) (pv_x_d w))], [state_at PH (ps_t_end p)])] else [])).
  { unfold R3. unfold nends at 1. rewrite Bool.negb_involutive.
    destruct (mem (ps_scheme p) gauss_schemes) eqn:M; [|reflexivity].
    pose proof (proj1 (mem_In _ _) M) as M'.
    destruct (extreme_x_end rr OK (ps_scheme p) (ps_n_coll p) (ps_order p) H E) as (ts & f & Et & Ef & F).
    { intros _. apply O3. apply in_or_app. now left. }
    rewrite Ep in Et. injection Et as <-. rewrite Ef. cbn [rbind].
    rewrite (run_cols_ok _ (ps_t_start p) (ps_t_end p) PL xn _ P _ f Sxn LP TP F). cbn [rbind].
    rewrite (run_cols_ok _ (ps_t_start p) (ps_t_end p) PL _ _ PH _ f Shn LH TH F). cbn [rbind].
    rewrite tau_end. reflexivity. }
  rewrite E3. cbn [rbind]. rewrite I0. f_equal. f_equal.
  change (mem (ps_scheme p) (gauss_2 ++ ["D2"%string])) with (mem (ps_scheme p) second_order_schemes).
  destruct (mem (ps_scheme p) second_order_schemes) eqn:M; [|reflexivity].
  pose proof (proj1 (mem_In _ _) M) as M'. specialize (O2 M').
  unfold q_and_der. rewrite O2. cbn [Nat.ltb Nat.leb Nat.add]. rewrite Nat.mul_0_r, !Nat.mul_1_r.
  rewrite (Nat.mul_comm (ps_n_q p) 2). reflexivity.
Qed.
End Apply.

Lemma state_at_app P Q t : state_at (P ++ Q) t = state_at P t ++ state_at Q t.
Proof. apply map_app. Qed.
Lemma rate_at_app P Q t : rate_at (P ++ Q) t = rate_at P t ++ rate_at Q t.
Proof. apply map_app. Qed.
Lemma slice_split {A} (l : list A) n : (n <= length l)%nat -> slice 0 n l ++ slice n (length l) l = l.
Proof.
  intros H. unfold slice. rewrite Nat.sub_0_r. cbn [skipn].
  rewrite (firstn_all2 (n := length l - n)); [apply firstn_skipn|rewrite skipn_length; lia].
Qed.
Lemma lastn_slice {A} (l : list A) k : (0 < k)%nat -> lastn k l = slice (length l - k) (length l) l.
Proof.
  intros H. unfold lastn, slice. destruct (Nat.eqb_spec k 0); [lia|].
  symmetry. apply firstn_all2. rewrite skipn_length. lia.
Qed.
Lemma vzero_of (r : vec) : r = map (fun _ => 0) r <-> Forall (fun a => a = 0) r.
Proof.
  induction r as [|a r IH]; simpl; [split; [constructor|reflexivity]|]. split.
  - intros E. injection E as E1 E2. constructor; [exact E1|now apply IH].
  - intros F. inversion F as [|? ? F1 F2]; subst. f_equal. now apply IH.
Qed.

Lemma in_enough_starts_nodes s : In s all_schemes ->
  (starts s = true -> nstarts s = true) /\ (ends s = true -> nends s = true).
Proof. intros H. scheme_cases H; rewrite <- ?H; cbv; auto. Qed.
Lemma second_order_ends s : In s second_order_schemes -> nstarts s = true /\ nends s = true.
Proof.
  intros H. cbv [second_order_schemes In] in H.
  repeat (destruct H as [<-|H]; [split; reflexivity|]). destruct H.
Qed.

Lemma index_split (ns ne : bool) n i : (i < 2 + n)%nat ->
  (exists i', (i' < b2n ns + n + b2n ne)%nat /\ i = (1 - b2n ns + i')%nat) \/
  (i = 0%nat /\ ns = false) \/ (i = (1 + n)%nat /\ ne = false).
Proof.
  intros H. destruct (Nat.eq_dec i 0) as [->|N0].
  - destruct ns; [left; exists 0%nat; simpl; lia|right; left; auto].
  - destruct (Nat.eq_dec i (1 + n)) as [->|N1].
    + destruct ne; [|right; right; auto]. left. exists (b2n ns + n)%nat. destruct ns; simpl; lia.
    + left. exists (i - (1 - b2n ns))%nat. destruct ns, ne; simpl; lia.
Qed.

Section Main.
Variable rr : list R -> list R.
Hypothesis OK : real_roots_ok rr.
Variable dyn : vec -> vec -> vec -> vec -> vec.

(** What the first block of constraints says about the polynomial through the
    node values. *)
Section Block.
Variables (taus : vec) (t0 tf : R) (nq m : nat) (xn dn : mat) (P : list (list R)).
Hypothesis ND : NoDup taus.
Hypothesis NE : (0 < length taus)%nat.
Hypothesis T : t0 <> tf.
Hypothesis Sx : shaped (length taus) m xn.
Hypothesis Sd : shaped (length taus) m dn.
Hypothesis LP : length P = m.
Hypothesis TP : traj_through (tau_to_t_points taus t0 tf) xn P.

Lemma block_first : dn = mscale (2 / (tf - t0)) (mmul (Dmat taus) xn) <->
  forall i, (i < length taus)%nat -> mrow i dn = rate_at P (tau_to_t (vnth taus i) t0 tf).
Proof.
  rewrite (rows_ext (length taus) m).
  - split; intros H i Hi; specialize (H i Hi); rewrite (D_rows taus t0 tf ND NE T xn m P i) in * by auto; exact H.
  - exact Sd.
  - apply mscale_shaped, (mmul_shaped _ (length taus)); auto using Dmat_shaped.
Qed.

Hypothesis Q0 : (0 < nq)%nat.
Hypothesis M2 : m = (2 * nq)%nat.

Lemma block_second :
  mcols nq (2 * nq) xn = mscale (2 / (tf - t0)) (mmul (Dmat taus) (mcols 0 nq xn)) /\
  mlastcols nq dn = mscale (2 / (tf - t0)) (mmul (Dmat taus) (mcols nq (2 * nq) xn)) <->
  (forall i, (i < length taus)%nat ->
     slice nq (2 * nq) (mrow i xn) = slice 0 nq (rate_at P (tau_to_t (vnth taus i) t0 tf)) /\
     lastn nq (mrow i dn) = lastn nq (rate_at P (tau_to_t (vnth taus i) t0 tf))).
Proof.
  assert (SA : shaped (length taus) nq (mcols 0 nq xn)).
  { replace nq with (nq - 0)%nat at 1 by lia. apply (mcols_shaped _ m); auto; lia. }
  assert (SB : shaped (length taus) nq (mcols nq (2 * nq) xn)).
  { replace nq with (2 * nq - nq)%nat at 1 by lia. apply (mcols_shaped _ m); auto; lia. }
  assert (SC : shaped (length taus) nq (mlastcols nq dn)).
  { apply (mlastcols_shaped _ m); auto; lia. }
  assert (SD : forall X, shaped (length taus) nq X ->
    shaped (length taus) nq (mscale (2 / (tf - t0)) (mmul (Dmat taus) X))).
  { intros X S. apply mscale_shaped, (mmul_shaped _ (length taus)); auto using Dmat_shaped. }
  assert (TA := traj_cols _ _ _ 0 nq TP ltac:(lia)).
  assert (TB := traj_cols _ _ _ nq (2 * nq) TP ltac:(lia)).
  assert (LA : length (slice 0 nq P) = nq) by (rewrite slice_length; lia).
  assert (LB : length (slice nq (2 * nq) P) = nq) by (rewrite slice_length; lia).
  assert (Lx := shaped_length _ _ _ Sx). assert (Ld := shaped_length _ _ _ Sd).
  rewrite (rows_ext (length taus) nq) by auto. rewrite (rows_ext (length taus) nq (mlastcols nq dn)) by auto.
  assert (E1 : forall i, (i < length taus)%nat ->
    mrow i (mscale (2 / (tf - t0)) (mmul (Dmat taus) (mcols 0 nq xn)))
    = slice 0 nq (rate_at P (tau_to_t (vnth taus i) t0 tf))).
  { intros i Hi. rewrite (D_rows taus t0 tf ND NE T _ nq (slice 0 nq P) i) by auto. apply rate_at_slice. }
  assert (E2 : forall i, (i < length taus)%nat ->
    mrow i (mscale (2 / (tf - t0)) (mmul (Dmat taus) (mcols nq (2 * nq) xn)))
    = lastn nq (rate_at P (tau_to_t (vnth taus i) t0 tf))).
  { intros i Hi. rewrite (D_rows taus t0 tf ND NE T _ nq (slice nq (2 * nq) P) i) by auto.
    rewrite rate_at_slice, lastn_slice by exact Q0. rewrite rate_at_length, LP, M2. f_equal; lia. }
  split.
  - intros [H1 H2] i Hi. specialize (H1 i Hi). specialize (H2 i Hi).
    rewrite E1, mrow_mcols in H1 by lia. rewrite E2, mrow_lastcols in H2 by lia. auto.
  - intros H. split; intros i Hi; destruct (H i Hi) as [H1 H2].
    + now rewrite E1, mrow_mcols by lia.
    + now rewrite E2, mrow_lastcols by lia.
Qed.
End Block.

Lemma satisfied_app a b : satisfied (a ++ b) <-> satisfied a /\ satisfied b.
Proof. apply Forall_app. Qed.
Lemma satisfied_cons c l : satisfied (c :: l) <-> fst c = snd c /\ satisfied l.
Proof. split; [intros H; now inversion H|intros [A B]; now constructor]. Qed.
Lemma single_eq (a b : vec) : [a] = [b] <-> a = b.
Proof. split; [now intros [= ->]|now intros ->]. Qed.

Theorem apply_sound p w s cs : ps_valid p -> opti_setup rr p = Ok s ->
  shaped (pset_n_arr s) (ps_order p * ps_n_q p) (pv_x w) ->
  shaped (pset_n_arr s) (ps_order p * ps_n_q p) (pv_x_d w) ->
  (In (ps_scheme p) second_order_schemes -> residual_has_velocity (ps_n_q p) dyn) ->
  apply_scheme rr dyn p w = Ok cs -> satisfied cs ->
  exists P, length P = (ps_order p * ps_n_q p)%nat /\
    collocation_solution dyn (pset_n_nodes s) (ps_n_q p) (t_of p (pset_tau s)) (t_of p (pset_tau_col s))
      (pv_x w) (mlastcols (ps_n_q p) (pv_x_d w)) (pv_u w) (pv_lam w) P.
Proof.
  intros V Es Sx Sd RV Ea Sat.
  assert (V' := V). destruct V' as (H & E & O1 & Q1 & T & O2 & O3).
  destruct (apply_shape rr OK dyn p w V) as (c & S & A). cbv zeta in A.
  set (sch := ps_scheme p) in *. set (taus := with_ends (nstarts sch) (nends sch) c) in *.
  destruct A as (Es' & NE & App). rewrite Es in Es'. injection Es' as ->.
  cbn [pset_n_nodes pset_n_arr pset_D pset_tau pset_tau_node pset_tau_col pset_node] in *.
  specialize (App Sx Sd).
  set (m := (ps_order p * ps_n_q p)%nat) in *. set (nq := ps_n_q p) in *.
  set (t0 := ps_t_start p) in *. set (tf := ps_t_end p) in *.
  set (a := (1 - b2n (nstarts sch))%nat) in *. set (b := (1 - b2n (nends sch))%nat) in *.
  set (xn := take (a, b) (pv_x w)) in *. set (dn := take (a, b) (pv_x_d w)) in *.
  assert (ND : NoDup taus) by apply (with_ends_NoDup _ _ _ _ S).
  assert (Ln : length taus = (b2n (nstarts sch) + length c + b2n (nends sch))%nat) by apply with_ends_length.
  assert (NL : (2 + length c - a - b)%nat = length taus).
  { rewrite Ln. unfold a, b. destruct (nstarts sch), (nends sch); simpl; lia. }
  assert (Mq : (nq <= m)%nat) by (unfold m; nia).
  assert (Lx := shaped_length _ _ _ Sx). assert (Ld := shaped_length _ _ _ Sd).
  assert (Sxn : shaped (length taus) m xn) by (rewrite <- NL; now apply take_shaped).
  assert (Sdn : shaped (length taus) m dn) by (rewrite <- NL; now apply take_shaped).
  assert (Lxn := shaped_length _ _ _ Sxn). assert (Ldn := shaped_length _ _ _ Sdn).
  assert (Shn : shaped (length taus) nq (mlastcols nq dn)).
  { apply (mlastcols_shaped _ m); [exact Sdn|lia|exact Mq]. }
  set (ts := t_of p taus) in *.
  assert (Nts : NoDup ts) by (now apply times_NoDup).
  assert (Lts : length ts = length taus) by apply times_length.
  set (P := interp_traj ts m xn). set (PH := interp_traj ts nq (mlastcols nq dn)).
  assert (TP : traj_through ts xn P) by now apply interp_traj_ok.
  assert (TH : traj_through ts (mlastcols nq dn) PH) by now apply interp_traj_ok.
  assert (LP : length P = m) by apply interp_traj_length.
  assert (LH : length PH = nq) by apply interp_traj_length.
  rewrite (App P PH LP LH TP TH) in Ea. injection Ea as <-. clear App.
  unfold constraints_of in Sat. cbn [pset_n_nodes pset_n_arr pset_D pset_tau pset_tau_node pset_tau_col pset_node] in Sat.
  fold sch t0 tf nq a b in Sat. fold xn dn in Sat.
  apply satisfied_app in Sat. destruct Sat as [F1 Sat]. apply satisfied_app in Sat. destruct Sat as [F2 Sat].
  apply satisfied_app in Sat. destruct Sat as [F3 F4].
  assert (Vts : forall i, (i < length taus)%nat -> vnth ts i = tau_to_t (vnth taus i) t0 tf).
  { intros i Hi. now apply vnth_times. }
  (* rows of the node matrices *)
  assert (RA : forall i, (i < length taus)%nat -> mrow (a + i) (pv_x w) = state_at P (vnth ts i)).
  { intros i Hi. rewrite <- (mrow_take (pv_x w) a b) by lia. apply (traj_row ts xn (length taus) m); auto. }
  assert (RB : forall i, (i < length taus)%nat ->
    lastn nq (mrow (a + i) (pv_x_d w)) = lastn nq (rate_at P (vnth ts i)) /\
    (mem sch second_order_schemes = false -> mrow (a + i) (pv_x_d w) = rate_at P (vnth ts i)) /\
    (mem sch second_order_schemes = true ->
      slice nq (2 * nq) (mrow (a + i) (pv_x w)) = slice 0 nq (rate_at P (vnth ts i)))).
  { intros i Hi. rewrite <- (mrow_take (pv_x_d w) a b), <- (mrow_take (pv_x w) a b) by lia.
    rewrite Vts by exact Hi. fold dn xn.
    destruct (mem sch second_order_schemes) eqn:M.
    - apply satisfied_cons in F1. destruct F1 as [G1 F1]. apply satisfied_cons in F1. destruct F1 as [G2 _].
      cbn [fst snd] in G1, G2.
      assert (M2 : m = (2 * nq)%nat).
      { unfold m, nq. rewrite O2; [reflexivity|]. now apply mem_In. }
      pose proof (proj1 (block_second taus t0 tf nq m xn dn P ND NE T Sxn Sdn LP TP Q1 M2) (conj G1 G2) i Hi) as [K1 K2].
      repeat split; [exact K2|discriminate|intros _; exact K1].
    - apply satisfied_cons in F1. destruct F1 as [G1 _]. cbn [fst snd] in G1.
      pose proof (proj1 (block_first taus t0 tf m xn dn P ND NE T Sxn Sdn LP TP) G1 i Hi) as K.
      repeat split; [now rewrite K|intros _; exact K|discriminate]. }
  assert (Q : forall t, state_at PH t = lastn nq (rate_at P t)).
  { intros t.
    assert (LS : length (slice (m - nq) m P) = nq) by (rewrite slice_length; lia).
    destruct (traj_unique ts (mlastcols nq dn) PH (map pderiv (slice (m - nq) m P)) Nts) with (t := t) as [K _].
    - now rewrite map_length, LS.
    - exact TH.
    - apply (traj_of_rows _ _ (length taus) nq); auto.
      + now rewrite map_length.
      + intros q I. apply in_map_iff in I. destruct I as (q' & <- & I). rewrite pderiv_length.
        assert (I' : In q' P).
        { unfold slice in I. rewrite <- (firstn_skipn (m - nq) P). apply in_or_app. right.
          rewrite <- (firstn_skipn (m - (m - nq)) (skipn (m - nq) P)). apply in_or_app. now left. }
        pose proof (traj_bound ts xn P q' TP I'). lia.
      + intros i Hi. rewrite mrow_lastcols by lia. unfold dn. rewrite mrow_take by lia.
        destruct (RB i Hi) as [-> _]. rewrite rate_as_state, rate_at_slice, lastn_slice by exact Q1.
        now rewrite rate_at_length, LP.
    - rewrite K, rate_as_state, rate_at_slice, lastn_slice by exact Q1. now rewrite rate_at_length, LP. }
  exists P. split; [exact LP|].
  assert (Lt : length (t_of p (with_ends true true c)) = (2 + length c)%nat).
  { unfold t_of. rewrite times_length, with_ends_length. simpl. lia. }
  assert (Lc : length (t_of p (with_ends (starts sch) (ends sch) c)) = ps_n_coll p).
  { unfold t_of. rewrite times_length, with_ends_length. destruct S as [-> _]. now apply enough_length. }
  assert (Vt : forall i, (i < 2 + length c)%nat -> vnth (t_of p (with_ends true true c)) i
     = tau_to_t (vnth (with_ends true true c) i) t0 tf).
  { intros i Hi. apply vnth_times. rewrite with_ends_length. simpl. lia. }
  assert (Vn : forall i, (i < length taus)%nat -> vnth (t_of p (with_ends true true c)) (a + i) = vnth ts i).
  { intros i Hi. rewrite Vt by lia. rewrite Vts by exact Hi. unfold taus, a. rewrite (with_ends_shift (nstarts sch) (nends sch)) by lia. reflexivity. }
  assert (Vl : vnth (with_ends true true c) (1 + length c) = 1).
  { etransitivity; [|apply (with_ends_last true c)]. f_equal. rewrite with_ends_length. simpl. lia. }
  split; [|split; [|split]].
  - apply Forall_forall. intros q I. rewrite <- Lts. now apply (traj_bound ts xn P).
  - rewrite Lt. intros i Hi.
    destruct (index_split (nstarts sch) (nends sch) (length c) i Hi) as [(i' & Hi' & ->)|[[-> Z]|[-> Z]]].
    + fold a. rewrite RA, Vn by lia. reflexivity.
    + rewrite Z in F2. cbn [negb] in F2. apply satisfied_cons in F2. destruct F2 as [G _]. cbn [fst snd] in G.
      apply single_eq in G. rewrite G, Vt by lia. rewrite with_ends_first, tau_start. reflexivity.
    + rewrite Z in F3. cbn [negb] in F3. apply satisfied_cons in F3. destruct F3 as [G _]. cbn [fst snd] in G.
      apply single_eq in G. replace (length (pv_x w) - 1)%nat with (1 + length c)%nat in G by lia.
      rewrite G, Vt, Vl, tau_end by lia. reflexivity.
  - rewrite Lt. intros i Hi.
    destruct (index_split (nstarts sch) (nends sch) (length c) i Hi) as [(i' & Hi' & ->)|[[-> Z]|[-> Z]]].
    + fold a. rewrite mrow_lastcols, Vn by lia. apply RB. lia.
    + rewrite Z in F2. cbn [negb] in F2. apply satisfied_cons in F2. destruct F2 as [_ F2].
      apply satisfied_cons in F2. destruct F2 as [G _]. cbn [fst snd] in G.
      apply single_eq in G. rewrite G, Vt by lia. rewrite with_ends_first, tau_start. apply Q.
    + rewrite Z in F3. cbn [negb] in F3. apply satisfied_cons in F3. destruct F3 as [_ F3].
      apply satisfied_cons in F3. destruct F3 as [G _]. cbn [fst snd] in G.
      apply single_eq in G. replace (length (pv_x w) - 1)%nat with (1 + length c)%nat in G by lia.
      rewrite G, Vt, Vl, tau_end by lia. apply Q.
  - rewrite Lc. intros k Hk.
    destruct (in_enough_starts_nodes sch H) as [S1 S2].
    assert (EL := enough_length sch (ps_n_coll p) H E). destruct S as [Sl _]. rewrite <- Sl in EL.
    set (i0 := (1 - b2n (starts sch))%nat) in *.
    assert (HI : exists i, (i < length taus)%nat /\ (i0 + k)%nat = (a + i)%nat).
    { exists (i0 + k - a)%nat. unfold i0, a. rewrite Ln.
      destruct (starts sch), (ends sch), (nstarts sch), (nends sch); simpl in *;
        try (specialize (S1 eq_refl); discriminate); try (specialize (S2 eq_refl); discriminate); split; lia. }
    destruct HI as (i & Hi & Ei).
    assert (Tk : vnth (t_of p (with_ends (starts sch) (ends sch) c)) k = vnth ts i).
    { rewrite <- Vn by exact Hi. rewrite <- Ei. unfold t_of. rewrite !vnth_times; try (rewrite with_ends_length; simpl; lia).
      rewrite (with_ends_shift (starts sch) (ends sch)) by lia. reflexivity. }
    rewrite Tk.
    unfold satisfied in F4. rewrite Forall_forall in F4.
    specialize (F4 _ (in_map (fun ii => ([dyn (mrow (i0 + ii) (pv_x w)) (mrow (i0 + ii) (pv_x_d w)) (mrow ii (pv_u w)) (mrow ii (pv_lam w))],
       [map (fun _ => 0) (dyn (mrow (i0 + ii) (pv_x w)) (mrow (i0 + ii) (pv_x_d w)) (mrow ii (pv_u w)) (mrow ii (pv_lam w)))]))
       _ k (proj2 (in_seq _ _ _) (conj (Nat.le_0_l k) Hk)))).
    cbn [fst snd] in F4. apply single_eq in F4. pose proof (proj1 (vzero_of _) F4) as Z. clear F4.
    rewrite Ei, RA in Z by exact Hi.
    replace (rate_at P (vnth ts i)) with (mrow (a + i) (pv_x_d w)); [exact Z|].
    destruct (RB i Hi) as (B1 & B2 & B3).
    destruct (mem sch second_order_schemes) eqn:M; [|now apply B2].
    specialize (B3 eq_refl).
    assert (M2 : m = (2 * nq)%nat).
    { unfold m, nq. rewrite O2; [reflexivity|]. now apply mem_In. }
    assert (Ld' : length (mrow (a + i) (pv_x_d w)) = (2 * nq)%nat).
    { rewrite <- M2. apply (shaped_row _ _ _ _ Sd). lia. }
    assert (V1 := RV (proj1 (mem_In _ _) M) _ _ _ _
      (eq_trans (state_at_length P (vnth ts i)) (eq_trans LP M2)) Ld' Z).
    rewrite <- RA in V1 by exact Hi.
    assert (L2 : length (rate_at P (vnth ts i)) = (2 * nq)%nat) by (rewrite rate_at_length; lia).
    rewrite <- (slice_split (mrow (a + i) (pv_x_d w)) nq) by lia.
    rewrite <- (slice_split (rate_at P (vnth ts i)) nq) by lia.
    f_equal.
    + rewrite <- B3. unfold slice at 1. rewrite Nat.sub_0_r. cbn [skipn]. rewrite V1. unfold slice.
      symmetry. apply firstn_all2. rewrite skipn_length.
      rewrite (shaped_row _ _ _ (a + i) Sx) by lia. lia.
    + rewrite !lastn_slice in B1 by exact Q1. rewrite Ld', L2 in *.
      replace (2 * nq - nq)%nat with nq in B1 by lia. exact B1.
Qed.

Theorem apply_complete p w s P : ps_valid p -> opti_setup rr p = Ok s ->
  shaped (pset_n_arr s) (ps_order p * ps_n_q p) (pv_x w) ->
  shaped (pset_n_arr s) (ps_order p * ps_n_q p) (pv_x_d w) ->
  length P = (ps_order p * ps_n_q p)%nat ->
  collocation_solution dyn (pset_n_nodes s) (ps_n_q p) (t_of p (pset_tau s)) (t_of p (pset_tau_col s))
      (pv_x w) (mlastcols (ps_n_q p) (pv_x_d w)) (pv_u w) (pv_lam w) P ->
  (forall i, (i < pset_n_arr s)%nat -> mrow i (pv_x_d w) = rate_at P (vnth (t_of p (pset_tau s)) i)) ->
  (In (ps_scheme p) second_order_schemes -> forall i, (i < pset_n_arr s)%nat ->
     slice (ps_n_q p) (2 * ps_n_q p) (mrow i (pv_x w)) = slice 0 (ps_n_q p) (mrow i (pv_x_d w))) ->
  exists cs, apply_scheme rr dyn p w = Ok cs /\ satisfied cs.
Proof.
  intros V Es Sx Sd LP (CB & CX & CH & CD) XD SO.
  assert (V' := V). destruct V' as (H & E & O1 & Q1 & T & O2 & O3).
  destruct (apply_shape rr OK dyn p w V) as (c & S & A). cbv zeta in A.
  set (sch := ps_scheme p) in *. set (taus := with_ends (nstarts sch) (nends sch) c) in *.
  destruct A as (Es' & NE & App). rewrite Es in Es'. injection Es' as ->.
  cbn [pset_n_nodes pset_n_arr pset_D pset_tau pset_tau_node pset_tau_col pset_node] in *.
  specialize (App Sx Sd).
  set (m := (ps_order p * ps_n_q p)%nat) in *. set (nq := ps_n_q p) in *.
  set (t0 := ps_t_start p) in *. set (tf := ps_t_end p) in *.
  set (a := (1 - b2n (nstarts sch))%nat) in *. set (b := (1 - b2n (nends sch))%nat) in *.
  set (xn := take (a, b) (pv_x w)) in *. set (dn := take (a, b) (pv_x_d w)) in *.
  assert (ND : NoDup taus) by apply (with_ends_NoDup _ _ _ _ S).
  assert (Ln : length taus = (b2n (nstarts sch) + length c + b2n (nends sch))%nat) by apply with_ends_length.
  assert (NL : (2 + length c - a - b)%nat = length taus).
  { rewrite Ln. unfold a, b. destruct (nstarts sch), (nends sch); simpl; lia. }
  assert (Mq : (nq <= m)%nat) by (unfold m; nia).
  assert (Lx := shaped_length _ _ _ Sx). assert (Ld := shaped_length _ _ _ Sd).
  assert (Sxn : shaped (length taus) m xn) by (rewrite <- NL; now apply take_shaped).
  assert (Sdn : shaped (length taus) m dn) by (rewrite <- NL; now apply take_shaped).
  assert (Lxn := shaped_length _ _ _ Sxn). assert (Ldn := shaped_length _ _ _ Sdn).
  assert (Shn : shaped (length taus) nq (mlastcols nq dn)).
  { apply (mlastcols_shaped _ m); [exact Sdn|lia|exact Mq]. }
  set (ts := t_of p taus) in *.
  assert (Lts : length ts = length taus) by apply times_length.
  assert (Lt : length (t_of p (with_ends true true c)) = (2 + length c)%nat).
  { unfold t_of. rewrite times_length, with_ends_length. simpl. lia. }
  assert (Lc : length (t_of p (with_ends (starts sch) (ends sch) c)) = ps_n_coll p).
  { unfold t_of. rewrite times_length, with_ends_length. destruct S as [-> _]. now apply enough_length. }
  assert (Vt : forall i, (i < 2 + length c)%nat -> vnth (t_of p (with_ends true true c)) i
     = tau_to_t (vnth (with_ends true true c) i) t0 tf).
  { intros i Hi. apply vnth_times. rewrite with_ends_length. simpl. lia. }
  assert (Vts : forall i, (i < length taus)%nat -> vnth ts i = tau_to_t (vnth taus i) t0 tf).
  { intros i Hi. now apply vnth_times. }
  assert (Vn : forall i, (i < length taus)%nat -> vnth (t_of p (with_ends true true c)) (a + i) = vnth ts i).
  { intros i Hi. rewrite Vt by lia. rewrite Vts by exact Hi. unfold taus, a. rewrite (with_ends_shift (nstarts sch) (nends sch)) by lia. reflexivity. }
  assert (Vl : vnth (with_ends true true c) (1 + length c) = 1).
  { etransitivity; [|apply (with_ends_last true c)]. f_equal. rewrite with_ends_length. simpl. lia. }
  rewrite Lt in *. rewrite Lc in CD.
  assert (RA : forall i, (i < length taus)%nat -> mrow i xn = state_at P (vnth ts i)).
  { intros i Hi. unfold xn. rewrite mrow_take, CX, Vn by lia. reflexivity. }
  assert (RB : forall i, (i < length taus)%nat -> mrow i dn = rate_at P (vnth ts i)).
  { intros i Hi. unfold dn. rewrite mrow_take, XD, Vn by lia. reflexivity. }
  assert (B : forall q, In q P -> (length q <= length taus)%nat).
  { rewrite Forall_forall in CB. exact CB. }
  assert (TP : traj_through ts xn P) by (apply (traj_of_rows _ _ (length taus) m); auto).
  assert (LS : length (slice (m - nq) m P) = nq) by (rewrite slice_length; lia).
  set (PH := map pderiv (slice (m - nq) m P)).
  assert (LH : length PH = nq) by (unfold PH; now rewrite map_length).
  assert (Q : forall t, state_at PH t = lastn nq (rate_at P t)).
  { intros t. unfold PH. rewrite rate_as_state, rate_at_slice, lastn_slice by exact Q1. now rewrite rate_at_length, LP. }
  assert (TH : traj_through ts (mlastcols nq dn) PH).
  { apply (traj_of_rows _ _ (length taus) nq); auto.
    - intros q I. apply in_map_iff in I. destruct I as (q' & <- & I). rewrite pderiv_length.
      assert (I' : In q' P).
      { unfold slice in I. rewrite <- (firstn_skipn (m - nq) P). apply in_or_app. right.
        rewrite <- (firstn_skipn (m - (m - nq)) (skipn (m - nq) P)). apply in_or_app. now left. }
      specialize (B q' I'). lia.
    - intros i Hi. rewrite mrow_lastcols by lia. now rewrite RB, Q. }
  eexists. split; [exact (App P PH LP LH TP TH)|]. clear App.
  unfold constraints_of. cbn [pset_n_nodes pset_n_arr pset_D pset_tau pset_tau_node pset_tau_col pset_node].
  fold sch t0 tf nq a b. fold xn dn.
  rewrite !satisfied_app. split; [|split; [|split]].
  - destruct (mem sch second_order_schemes) eqn:M.
    + pose proof (proj1 (mem_In _ _) M) as M'.
      assert (M2 : m = (2 * nq)%nat) by (unfold m, nq; now rewrite O2).
      pose proof (proj2 (block_second taus t0 tf nq m xn dn P ND NE T Sxn Sdn LP TP Q1 M2)) as K.
      destruct K as [K1 K2].
      * intros i Hi. rewrite <- Vts by exact Hi. split.
        -- unfold xn. rewrite mrow_take by lia. rewrite SO by (auto; lia). now rewrite XD, Vn by lia.
        -- now rewrite RB.
      * repeat constructor; assumption.
    + constructor; [|constructor]. cbn [fst snd].
      apply (block_first taus t0 tf m xn dn P); auto. intros i Hi. rewrite <- Vts by exact Hi. now apply RB.
  - destruct (nstarts sch); [constructor|]. cbn [negb].
    assert (H0 := CX 0%nat ltac:(lia)). assert (H1 := CH 0%nat ltac:(lia)).
    rewrite Vt, with_ends_first, tau_start in H0, H1 by lia.
    repeat constructor; cbn [fst snd]; apply single_eq; [exact H0|now rewrite Q].
  - destruct (nends sch); [constructor|]. cbn [negb].
    assert (H0 := CX (1 + length c)%nat ltac:(lia)). assert (H1 := CH (1 + length c)%nat ltac:(lia)).
    rewrite Vt, Vl, tau_end in H0, H1 by lia.
    replace (length (pv_x w) - 1)%nat with (1 + length c)%nat by lia.
    repeat constructor; cbn [fst snd]; apply single_eq; [exact H0|now rewrite Q].
  - apply Forall_forall. intros cc I. apply in_map_iff in I. destruct I as (k & <- & I).
    apply in_seq in I. cbn [fst snd]. apply single_eq, vzero_of.
    assert (Hk : (k < ps_n_coll p)%nat) by lia. specialize (CD k Hk).
    destruct (in_enough_starts_nodes sch H) as [S1 S2].
    assert (EL := enough_length sch (ps_n_coll p) H E). destruct S as [Sl _]. rewrite <- Sl in EL.
    set (i0 := (1 - b2n (starts sch))%nat) in *.
    assert (Hi : (i0 + k < 2 + length c)%nat).
    { unfold i0. destruct (starts sch), (ends sch); simpl in *; lia. }
    rewrite CX, XD by exact Hi.
    assert (Tk : vnth (t_of p (with_ends (starts sch) (ends sch) c)) k = vnth (t_of p (with_ends true true c)) (i0 + k)).
    { unfold t_of. rewrite !vnth_times; try (rewrite with_ends_length; simpl; lia).
      rewrite (with_ends_shift (starts sch) (ends sch)) by lia. reflexivity. }
    now rewrite <- Tk.
Qed.
End Main.
