(** Consequences, the other guesses, what fails, and concrete cases. *)
From Coq Require Import String.
From Verif Require Import Prelude PreludeFacts Poly PolyInterp Mat MatFacts PwModel PwSchemeProofs PwInterpModel PwInterpSpec PwInterpProofs PwLiveProofs PwMoreProofs
  PsModel PsSpec PsPointsProofs PsBaryProofs PsProblemProofs PsApplyProofs PsMoreProofs UtilModel UtilSpec BuTdModel BuTdSpec BuTdProofs
  CostModel DispatchModel EquiModel InitModel InitSpec InitProofs InitLinProofs InitWayProofs.
Open Scope string_scope.
Open Scope list_scope.
Open Scope R_scope.

Lemma polyline_node (ts : vec) Y m i v : increasing ts -> shaped (length ts) m Y -> (i < length ts)%nat ->
  polyline ts Y (vnth ts i) v -> v = mrow i Y.
Proof.
  intros I S Hi H. pose proof (interp_polyline ts Y m _ v I S H) as E. rewrite (interp_2d_node ts Y m i I S Hi) in E. congruence.
Qed.
Lemma polyline_fun (ts : vec) Y m t v v' : increasing ts -> shaped (length ts) m Y -> polyline ts Y t v -> polyline ts Y t v' -> v = v'.
Proof.
  intros I S H H'. pose proof (interp_polyline ts Y m t v I S H) as E. rewrite (interp_polyline ts Y m t v' I S H') in E. congruence.
Qed.

(** Waypoints on a straight line: the slopes are its slope. *)
Lemma slopes_straight (ts : vec) Y D m (a b : vec) : (2 <= length ts)%nat -> slopes ts Y D m -> length b = m ->
  (forall i c, (i < length ts)%nat -> (c < m)%nat -> vnth (mrow i Y) c = vnth a c + vnth b c * vnth ts i) ->
  D = repeat b (length ts).
Proof.
  intros L (SD & H) Lb HY. apply nth_ext with [] [].
  - rewrite repeat_length. now apply (shaped_length _ _ _ SD).
  - intros i Hi. rewrite (shaped_length _ _ _ SD) in Hi. change (nth i D []) with (mrow i D).
    change (nth i (repeat b (length ts)) []) with (mrow i (repeat b (length ts))). rewrite mrow_repeat by auto.
    apply vec_ext; [now rewrite (shaped_row _ _ _ _ SD)|]. intros c Hc. rewrite (shaped_row _ _ _ _ SD) in Hc by auto.
    destruct (H c Hc) as (H1 & H2 & H3). destruct (Nat.eq_dec i 0) as [->|N0]; [|destruct (Nat.eq_dec i (length ts - 1)) as [->|N1]].
    + apply (H1 (vnth a c)); apply HY; auto; lia.
    + apply (H2 (vnth a c)); apply HY; auto; lia.
    + rewrite (H3 i ltac:(lia) ltac:(lia) (vnth a c) (vnth b c) 0); [ring|]. intros j Hj. rewrite HY by (auto; lia). ring.
Qed.
Lemma line_same (t0 t1 : R) (b : vec) t : line t0 t1 b b t = b.
Proof.
  apply vec_ext; [now apply line_length|]. intros i Hi. rewrite line_length in Hi by auto. rewrite vnth_line by auto. ring.
Qed.
Lemma polyline_const (ts : vec) b t v : polyline ts (repeat b (length ts)) t v -> v = b.
Proof. intros (i & Hi & _ & ->). rewrite !mrow_repeat by lia. apply line_same. Qed.

(** ** The zero guess *)
Section Zero.
  Variables (p : ini_problem) (g : guess) (N : nat).
  Notation order := (ip_order p).
  Notation n_q := (ip_n_q p).
  Hypothesis HO : (1 <= order)%nat.
  Hypothesis HQ : (1 <= n_q)%nat.
  Hypothesis S1 : shaped N (order * n_q) (g_x g).
  Hypothesis S2 : shaped N (order * n_q) (g_x_d g).

  Lemma zero_ok : (2 <= order)%nat \/ ip_class p <> Equispaced -> exists g', zero_guess p g = Ok g' /\
    forall j, (j < N)%nat -> der_guess order n_q 0 g' j = repeat 0 n_q /\ der_guess order n_q 1 g' j = repeat 0 n_q /\
      (ip_class p = Equispaced -> der_guess order n_q 2 g' j = repeat 0 n_q).
  Proof.
    intros HE. unfold zero_guess.
    destruct (set_der_ok order n_q N HO HQ 0 _ g ltac:(lia) S1 S2 (zeros_rows_shaped _ _ n_q _ S1)) as (g1 & -> & A1 & A2 & _ & V1 & _).
    cbn [rbind].
    destruct (set_der_ok order n_q N HO HQ 1 _ g1 HO A1 A2 (zeros_rows_shaped _ _ n_q _ A1)) as (g2 & -> & B1 & B2 & _ & V2 & _).
    cbn [rbind]. destruct (is_equi (ip_class p)) eqn:E.
    - assert (EC : ip_class p = Equispaced) by (destruct (ip_class p); try discriminate; reflexivity).
      assert (H2 : (2 <= order)%nat) by tauto. unfold set_a_zero. rewrite (proj2 (Nat.ltb_lt 1 order)) by lia.
      destruct (set_der_ok order n_q N HO HQ 2 _ g2 H2 B1 B2 (zeros_rows_shaped _ _ n_q _ B1)) as (g3 & -> & C1 & C2 & _ & V3 & _).
      exists g3. split; [reflexivity|]. intros j Hj. destruct (V1 j Hj) as [K1 K2], (V2 j Hj) as [K3 K4], (V3 j Hj) as [K5 K6].
      split; [|split].
      + rewrite K6, K4, K1 by lia. eapply zeros_rows_row; eauto.
      + rewrite K6, K3 by lia. eapply zeros_rows_row; eauto.
      + intros _. rewrite K5. eapply zeros_rows_row; eauto.
    - exists g2. split; [reflexivity|]. intros j Hj. destruct (V1 j Hj) as [K1 K2], (V2 j Hj) as [K3 K4].
      split; [|split].
      + rewrite K4, K1 by lia. eapply zeros_rows_row; eauto.
      + rewrite K3. eapply zeros_rows_row; eauto.
      + intros EC. rewrite EC in E. discriminate.
  Qed.
  (** Equispaced problems of order 1 have no "a". *)
  Lemma zero_fails : ip_class p = Equispaced -> order = 1%nat -> zero_guess p g = Err NotImplementedError.
  Proof.
    intros EC E1. unfold zero_guess.
    destruct (set_der_ok order n_q N HO HQ 0 _ g ltac:(lia) S1 S2 (zeros_rows_shaped _ _ n_q _ S1)) as (g1 & -> & A1 & A2 & _ & V1 & _).
    cbn [rbind].
    destruct (set_der_ok order n_q N HO HQ 1 _ g1 HO A1 A2 (zeros_rows_shaped _ _ n_q _ A1)) as (g2 & -> & B1 & B2 & _ & V2 & _).
    cbn [rbind]. rewrite EC. cbn [is_equi]. unfold set_a_zero. rewrite E1. reflexivity.
  Qed.
End Zero.

(** ** The custom guess, for problems that are not top-down *)
Section Custom.
  Variable rr : list R -> list R.
  Variables (p : ini_problem) (q v a u : mat) (g : guess) (N Nu nu : nat).
  Notation order := (ip_order p).
  Notation n_q := (ip_n_q p).
  Hypothesis HO : (1 <= order)%nat.
  Hypothesis HQ : (1 <= n_q)%nat.
  Hypothesis HNu : (1 <= Nu)%nat.
  Hypothesis S1 : shaped N (order * n_q) (g_x g).
  Hypothesis S2 : shaped N (order * n_q) (g_x_d g).
  Hypothesis S3 : shaped Nu nu (g_u g).
  Hypothesis Sq : shaped N n_q q.
  Hypothesis Sv : shaped N n_q v.
  Hypothesis Su : shaped Nu nu u.

  Lemma custom_ps_ok : ip_class p = Pseudospectral \/ ip_class p = BU_Pseudospectral ->
    exists g', custom_guess rr p q v a u g = Ok g' /\ g_u g' = u /\
    forall j, (j < N)%nat -> der_guess order n_q 0 g' j = mrow j q /\ der_guess order n_q 1 g' j = mrow j v /\
      forall k, (2 <= k <= order)%nat -> der_guess order n_q k g' j = der_guess order n_q k g j.
  Proof.
    intros HE. unfold custom_guess. cbn zeta.
    destruct (set_der_ok order n_q N HO HQ 0 q g ltac:(lia) S1 S2 Sq) as (g1 & -> & A1 & A2 & (R1 & _) & V1 & _).
    cbn [rbind]. rewrite R1. rewrite (set_all_ok _ _ nu Nu HNu S3 Su). cbn [rbind].
    destruct (set_der_ok order n_q N HO HQ 1 v (with_u u g1) HO A1 A2 Sv) as (g2 & -> & B1 & B2 & (R2 & _) & V2 & _).
    cbn [rbind]. assert (EE : is_equi (ip_class p) = false /\ is_td (ip_class p) = false) by (destruct HE as [-> | ->]; auto).
    destruct EE as [-> ->]. cbn [rbind]. exists g2. split; [reflexivity|]. split; [exact R2|].
    intros j Hj. destruct (V1 j Hj) as [K1 K2], (V2 j Hj) as [K3 K4].
    assert (DU : forall k, der_guess order n_q k (with_u u g1) j = der_guess order n_q k g1 j) by reflexivity.
    split; [|split].
    - rewrite K4, DU, K1 by lia. reflexivity.
    - rewrite K3. reflexivity.
    - intros k Hk. rewrite K4, DU, K2 by lia. reflexivity.
  Qed.
  (** Equispaced: the accelerations given are dropped. *)
  Lemma custom_eq_ok : ip_class p = Equispaced -> (2 <= order)%nat -> sub_in "hs" (ip_scheme p) = false ->
    exists g', custom_guess rr p q v a u g = Ok g' /\ g_u g' = u /\
    forall j, (j < N)%nat -> der_guess order n_q 0 g' j = mrow j q /\ der_guess order n_q 1 g' j = mrow j v /\
      der_guess order n_q 2 g' j = repeat 0 n_q.
  Proof.
    intros HE H2 HH. unfold custom_guess. cbn zeta.
    destruct (set_der_ok order n_q N HO HQ 0 q g ltac:(lia) S1 S2 Sq) as (g1 & -> & A1 & A2 & (R1 & _) & V1 & _).
    cbn [rbind]. rewrite R1. rewrite (set_all_ok _ _ nu Nu HNu S3 Su). cbn [rbind].
    destruct (set_der_ok order n_q N HO HQ 1 v (with_u u g1) HO A1 A2 Sv) as (g2 & -> & B1 & B2 & (R2 & _) & V2 & _).
    cbn [rbind]. rewrite HE. cbn [is_equi is_td]. unfold set_a_zero. rewrite (proj2 (Nat.ltb_lt 1 order)) by lia.
    destruct (set_der_ok order n_q N HO HQ 2 _ g2 H2 B1 B2 (zeros_rows_shaped _ _ n_q _ B1)) as (g3 & -> & C1 & C2 & (R3 & _) & V3 & _).
    cbn [rbind]. rewrite HH. cbn [rbind]. exists g3. split; [reflexivity|]. split; [rewrite R3, R2; reflexivity|].
    intros j Hj. destruct (V1 j Hj) as [K1 K2], (V2 j Hj) as [K3 K4], (V3 j Hj) as [K5 K6].
    assert (DU : forall k, der_guess order n_q k (with_u u g1) j = der_guess order n_q k g1 j) by reflexivity.
    split; [|split].
    - rewrite K6, K4, DU, K1 by lia. reflexivity.
    - rewrite K6, K3 by lia. reflexivity.
    - rewrite K5. eapply zeros_rows_row; eauto.
  Qed.
End Custom.

(** ** Numbers as positions *)
Lemma lin_floats rr p r r' g : lin_guess rr p (Q_float r) (Q_float r') g = Err IndexError.
Proof. reflexivity. Qed.

(** ** Concrete cases: order 2, one coordinate, times 0, 1, 2 *)
Definition ini_example (c : sch_class) (s : string) : ini_problem :=
  {| ip_class := c; ip_scheme := s; ip_order := 2; ip_n_q := 1; ip_t_start := 0; ip_t_end := 2; ip_t := [0; 1; 2]; ip_t_col := [0; 1; 2];
     ip_n_constr := 4 |}.
Definition new_guess : guess :=
  {| g_x := repeat [0; 0] 3; g_x_d := repeat [0; 0] 3; g_u := repeat [0] 3; g_x_c := repeat [0; 0] 2; g_x_d_c := repeat [0; 0] 2;
     g_u_c := repeat [0] 2; g_q_constr := repeat [0] 4 |}.
Lemma new_guess_fresh : fresh new_guess 3 2 1 2 4 1.
Proof. repeat split; repeat constructor. Qed.
Lemma ini_in : Forall (fun s => 0 <= s <= 2) [0; 1; 2].
Proof. repeat constructor; lra. Qed.
Lemma lin_example rr : real_roots_ok rr -> forall c s, exists g', lin_guess rr (ini_example c s) (Q_array [1]) (Q_array [5]) new_guess = Ok g' /\
  map (der_guess 2 1 0 g') [0; 1; 2]%nat = [[1]; [3]; [5]] /\ map (der_guess 2 1 1 g') [0; 1; 2]%nat = [[2]; [2]; [2]] /\
  map (der_guess 2 1 2 g') [0; 1; 2]%nat = [[0]; [0]; [0]].
Proof.
  intros OK c s.
  destruct (lin_ok rr OK (ini_example c s) [1] [5] new_guess 1) as (g' & E & V & _); cbn [ini_example ip_order ip_n_q ip_t_start ip_t_end ip_t ip_class ip_n_constr length]; try lia; try lra; try (intros; lia).
  - exact ini_in.
  - exact new_guess_fresh.
  - exists g'. split; [exact E|].
    assert (V' : forall j, (j < 3)%nat -> der_guess 2 1 0 g' j = line 0 2 [1] [5] (vnth [0; 1; 2] j) /\ der_guess 2 1 1 g' j = vdivs (vsub [5] [1]) (2 - 0) /\
      der_guess 2 1 2 g' j = [0]).
    { intros j Hj. destruct (V j Hj) as (A & B & C). split; [exact A|]. split; [exact B|]. apply (C 2%nat). cbn. lia. }
    destruct (V' 0%nat ltac:(lia)) as (A & B & C), (V' 1%nat ltac:(lia)) as (A' & B' & C'), (V' 2%nat ltac:(lia)) as (A'' & B'' & C'').
    cbn [map]. rewrite A, A', A'', B, B', B'', C, C', C''. unfold line, vdivs, vsub, vnth. cbn [map map2 nth].
    split; [|split; [|reflexivity]]; repeat (f_equal; try field).
Qed.
Lemma way_example rr : real_roots_ok rr -> forall c s, exists g',
  waypoints_guess rr (ini_example c s) [[1]; [5]; [5]] None None new_guess = Ok g' /\
  map (der_guess 2 1 0 g') [0; 1; 2]%nat = [[1]; [5]; [5]] /\ map (der_guess 2 1 1 g') [0; 1; 2]%nat = [[4]; [2]; [0]].
Proof.
  intros OK c s.
  assert (ET : way_times (ini_example c s) [[1]; [5]; [5]] None = [0; 1; 2]).
  { unfold way_times, eq_t_arr. cbn. repeat (f_equal; try field). }
  assert (IT : increasing [0; 1; 2]).
  { intros i j Hij. simpl in Hij. destruct i as [|[|i]]; destruct j as [|[|[|j]]]; try lia; unfold vnth; simpl; lra. }
  assert (SY : shaped 3 1 [[1]; [5]; [5]]) by (split; [reflexivity|repeat constructor]).
  destruct (way_ok rr OK (ini_example c s) [[1]; [5]; [5]] None None new_guess 1) as (g' & Ds & E & LD & E0 & SS & V & _);
    unfold within_times; rewrite ?ET; cbn [ini_example ip_order ip_n_q ip_t_start ip_t_end ip_t ip_class ip_n_constr length]; try lia; try lra; try (intros; lia).
  - exact IT.
  - exact SY.
  - repeat constructor; unfold vnth; simpl; lra.
  - exact new_guess_fresh.
  - intros _. split; [lia|]. repeat constructor; unfold vnth; simpl; lra.
  - intros; discriminate.
  - rewrite ET in SS, V. cbn [ini_example ip_order ip_n_q ip_t length Nat.add] in *. exists g'. split; [exact E|].
    assert (SL : slopes [0; 1; 2] [[1]; [5]; [5]] (nth 1 Ds []) 1) by (rewrite <- E0; apply (SS 0%nat); lia).
    assert (S1 : shaped 3 1 (nth 1 Ds [])) by apply SL.
    assert (W0 : forall j, (j < 3)%nat -> der_guess 2 1 0 g' j = mrow j [[1]; [5]; [5]]).
    { intros j Hj. apply (polyline_node [0; 1; 2] _ 1 j); auto. rewrite <- E0. apply (V 0%nat); lia. }
    assert (W1 : forall j, (j < 3)%nat -> der_guess 2 1 1 g' j = mrow j (nth 1 Ds [])).
    { intros j Hj. apply (polyline_node [0; 1; 2] _ 1 j _ IT S1 Hj). apply (V 1%nat); lia. }
    cbn [map]. rewrite !W0, !W1 by lia. split; [reflexivity|].
    destruct SL as (_ & SL). destruct (SL 0%nat ltac:(lia)) as (K1 & K2 & K3).
    assert (R1 : forall j x, (j < 3)%nat -> vnth (mrow j (nth 1 Ds [])) 0 = x -> mrow j (nth 1 Ds []) = [x]).
    { intros j x Hj Hx. pose proof (shaped_row _ _ _ j S1 Hj) as L. destruct (mrow j (nth 1 Ds [])) as [|y [|? ?]]; try discriminate.
      unfold vnth in Hx. simpl in Hx. now subst. }
    rewrite (R1 0%nat 4), (R1 1%nat 2), (R1 2%nat 0); auto; try lia.
    + apply (K2 5 0); unfold vnth; cbn; ring.
    + rewrite (K3 1%nat ltac:(lia) ltac:(cbn; lia) 1 6 (-2)); [unfold vnth; cbn; ring|].
      intros j Hj. destruct j as [|[|[|j]]]; try lia; unfold vnth; cbn; ring.
    + apply (K1 1 4); unfold vnth; cbn; ring.
Qed.
(** With "j" in the scheme the interior point is not in the middle. *)
Lemma hsj_centre rr : real_roots_ok rr -> exists g', lin_guess rr (ini_example Equispaced "hsj") (Q_array [0]) (Q_array [2]) new_guess = Ok g' /\
  eq_t_c_arr "hsj" [0; 1; 2] = [2 / 5; 7 / 5] /\ der_guess_c 2 1 0 g' 0 = [1 / 2] /\ line 0 2 [0] [2] (2 / 5) = [2 / 5].
Proof.
  intros OK.
  destruct (lin_ok rr OK (ini_example Equispaced "hsj") [0] [2] new_guess 1) as (g' & E & _ & _ & V & _); cbn [ini_example ip_order ip_n_q ip_t_start ip_t_end ip_t ip_class ip_n_constr length]; try lia; try lra; try (intros; lia).
  - exact ini_in.
  - exact new_guess_fresh.
  - exists g'. split; [exact E|].
    assert (K : (0 + 1 < length (ip_t (ini_example Equispaced "hsj")))%nat) by (cbn; lia).
    destruct (V eq_refl ltac:(cbn; lia) eq_refl 0%nat K) as (V0 & _).
    split; [|split].
    + unfold eq_t_c_arr. cbn. f_equal; [lra|]. f_equal. lra.
    + etransitivity; [exact V0|]. unfold line, vnth. cbn. f_equal. field.
    + unfold line. cbn. f_equal. field.
Qed.
