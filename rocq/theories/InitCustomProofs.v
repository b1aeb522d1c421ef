(** The guess of _Custom_init, for every class of problem of one segment. *)
From Coq Require Import String.
From Verif Require Import Prelude PreludeFacts Poly PolyInterp Mat MatFacts PwModel PwSchemeProofs PwInterpModel PwInterpSpec PwInterpProofs PwLiveProofs PwMoreProofs
  PsModel PsSpec PsPointsProofs PsBaryProofs PsProblemProofs PsApplyProofs PsMoreProofs UtilModel UtilSpec BuTdModel BuTdSpec BuTdProofs
  CostModel DispatchModel EquiModel InitModel InitSpec InitProofs InitLinProofs InitFinalProofs.
Open Scope string_scope.
Open Scope list_scope.
Open Scope R_scope.

(** ** numpy.interp outside the samples *)
Lemma last_cons {A} (a : A) l d : last (a :: l) d = last l a.
Proof. revert a d. induction l as [|b l IH]; intros a d; [reflexivity|]. change (last (a :: b :: l) d) with (last (b :: l) d). now rewrite !IH. Qed.
Lemma np_interp_after rest : forall t0 y0 t, increasing_from t0 (map fst rest) -> t0 <= t ->
  (forall s, In s (map fst rest) -> s <= t) ->
  last (map fst rest) t0 < t -> np_interp t0 y0 rest t = last (map snd rest) y0.
Proof.
  induction rest as [|[t1 y1] rest IH]; intros t0 y0 t I H0 HA HL; [reflexivity|].
  cbn [np_interp]. cbn [map fst] in *. destruct I as [I1 I2].
  destruct (Rle_dec t t0) as [C|_]; [exfalso; pose proof (HA t1 (or_introl eq_refl)); lra|].
  assert (HL' : last (map fst rest) t1 < t).
  { now rewrite last_cons in HL. }
  assert (H1 : t1 < t).
  { destruct rest as [|[a b] rest']; [exact HL'|]. cbn [map fst] in I2, HA. destruct I2 as [I3 _]. pose proof (HA a ltac:(right; left; reflexivity)). lra. }
  destruct (Rle_dec t t1) as [C|_]; [lra|].
  rewrite (IH t1 y1 t); auto; try lra.
  - cbn [map snd]. now rewrite last_cons.
  - intros s Hs. apply HA. now right.
Qed.
Lemma np_interp_before rest t0 y0 t : t <= t0 -> np_interp t0 y0 rest t = y0.
Proof. destruct rest as [|[a b] r]; intros H; [reflexivity|]. cbn [np_interp]. destruct (Rle_dec t t0); [reflexivity|lra]. Qed.
Lemma last_nth {A} (l : list A) : forall a d d', last (a :: l) d = nth (length l) (a :: l) d'.
Proof.
  induction l as [|b l IH]; intros a d d'; [reflexivity|].
  change (last (a :: b :: l) d) with (last (b :: l) d). rewrite (IH b d d'). reflexivity.
Qed.
Lemma last_vnth t0 (ts : vec) : last ts t0 = vnth (t0 :: ts) (length (t0 :: ts) - 1).
Proof. rewrite <- (last_cons t0 ts 0). rewrite (last_nth ts t0 0 0). unfold vnth. cbn [length]. f_equal. lia. Qed.
Lemma map_fst_combine {A B} (l : list A) : forall l' : list B, length l' = length l -> map fst (combine l l') = l.
Proof. induction l as [|a l IH]; intros [|b l'] H; try discriminate; [reflexivity|]. cbn. rewrite IH; auto. Qed.
Lemma map_snd_combine {A B} (l : list A) : forall l' : list B, length l' = length l -> map snd (combine l l') = l'.
Proof. induction l as [|a l IH]; intros [|b l'] H; try discriminate; [reflexivity|]. cbn. rewrite IH; auto. Qed.

Lemma interp_held (ts : vec) Y m t : increasing ts -> (2 <= length ts)%nat -> shaped (length ts) m Y ->
  exists v, interp_2d ts Y t = Ok v /\ length v = m /\ held_line ts Y t v.
Proof.
  intros I L S.
  assert (IN : forall i, (i < length ts)%nat -> interp_2d ts Y (vnth ts i) = Ok (mrow i Y)).
  { intros i Hi. now apply interp_2d_node with m. }
  assert (OR : vnth ts 0 < vnth ts (length ts - 1)) by (apply I; lia).
  destruct (Rle_dec (vnth ts 0) t) as [C|C].
  - destruct (Rle_dec t (vnth ts (length ts - 1))) as [C'|C'].
    + destruct (polyline_cover ts t L (conj C C')) as (i & Hi & Ht).
      pose proof (interp_line ts Y m i t I S Hi Ht) as E. eexists. split; [exact E|]. split.
      { rewrite line_length; rewrite !(shaped_row _ _ _ _ S); auto; lia. }
      split; [intros _; exists i; auto|]. split; intros H.
      * assert (t = vnth ts 0) by lra. subst t. rewrite IN in E by lia. congruence.
      * assert (t = vnth ts (length ts - 1)) by lra. subst t. rewrite IN in E by lia. congruence.
    + exists (mrow (length ts - 1) Y). split; [|split; [apply (shaped_row _ _ _ _ S); lia|split; [lra|split; [lra|auto]]]].
      unfold interp_2d. rewrite (shaped_length _ _ _ S), Nat.eqb_refl. cbn [negb]. unfold np_interp_rows.
      destruct ts as [|t0 ts]; [simpl in L; lia|]. destruct Y as [|y0 Y]; [destruct S; discriminate|].
      destruct S as [LS FS]. cbn [length] in LS. injection LS as LS.
      cbn [combine]. f_equal. pose proof (increasing_cons_from _ _ I) as I'.
      assert (HL : last ts t0 < t) by (rewrite last_vnth; lra).
      rewrite np_interp_after.
      * rewrite map_snd_combine by auto. rewrite <- (last_cons y0 Y []). rewrite (last_nth Y y0 [] []). unfold mrow. cbn [length]. f_equal. lia.
      * rewrite map_fst_combine by auto. exact I'.
      * unfold vnth in C. cbn [nth] in C. lra.
      * rewrite map_fst_combine by auto. intros s Hs. destruct (In_nth _ _ 0 Hs) as (k & Hk & <-).
        assert (vnth (t0 :: ts) (k + 1) <= vnth (t0 :: ts) (length (t0 :: ts) - 1)).
        { destruct (Nat.eq_dec (k + 1) (length (t0 :: ts) - 1)) as [->|Hn]; [lra|]. left. apply I. cbn [length] in *. lia. }
        replace (nth k ts 0) with (vnth (t0 :: ts) (k + 1)); [lra|]. rewrite Nat.add_1_r. reflexivity.
      * rewrite map_fst_combine by auto. exact HL.
  - exists (mrow 0 Y). split; [|split; [apply (shaped_row _ _ _ _ S); lia|split; [lra|split; [auto|lra]]]].
    unfold interp_2d. rewrite (shaped_length _ _ _ S), Nat.eqb_refl. cbn [negb]. unfold np_interp_rows.
    destruct ts as [|t0 ts]; [simpl in L; lia|]. destruct Y as [|y0 Y]; [destruct S; discriminate|].
    cbn [combine]. f_equal. rewrite np_interp_before; [reflexivity|]. unfold vnth in C. cbn [nth] in C. lra.
Qed.
Lemma interp_all_held (ts : vec) Y m t : increasing ts -> (2 <= length ts)%nat -> shaped (length ts) m Y ->
  exists Z, interp_all ts Y t = Ok Z /\ shaped (length t) m Z /\ forall j, (j < length t)%nat -> held_line ts Y (vnth t j) (mrow j Z).
Proof.
  intros I L S. unfold interp_all. induction t as [|a t (Z & EZ & [LZ FZ] & VZ)].
  - exists []. split; [reflexivity|]. split; [split; [reflexivity|constructor]|]. cbn [length]. lia.
  - destruct (interp_held ts Y m a I L S) as (v & E & Lv & H). cbn [mapm]. rewrite E. cbn [rbind]. rewrite EZ. cbn [rbind].
    exists (v :: Z). split; [reflexivity|]. split; [split; [cbn [length]; lia|constructor; auto]|].
    intros [|j] Hj; [exact H|]. apply VZ. cbn [length] in Hj. lia.
Qed.
Lemma held_unique ts Y m t v v' : increasing ts -> (2 <= length ts)%nat -> shaped (length ts) m Y ->
  held_line ts Y t v -> held_line ts Y t v' -> v = v'.
Proof.
  intros I L S (A & B & C) (A' & B' & C').
  destruct (Rle_dec (vnth ts 0) t) as [K|K]; [|rewrite B, B' by lra; reflexivity].
  destruct (Rle_dec t (vnth ts (length ts - 1))) as [K'|K']; [|rewrite C, C' by lra; reflexivity].
  eapply polyline_fun; eauto.
Qed.

Lemma constr_times_length rr p : real_roots_ok rr -> (2 <= ip_n_constr p)%nat -> length (constr_times rr p) = ip_n_constr p.
Proof.
  intros OK H2. unfold constr_times. destruct (matrix_D_nu_ok rr OK (ip_n_constr p) H2) as (_ & _ & _ & L & _).
  now rewrite times_length.
Qed.

Section Custom.
  Variable rr : list R -> list R.
  Hypothesis OK : real_roots_ok rr.
  Variables (p : ini_problem) (q v a u : mat) (g : guess) (N Nu nu : nat).
  Notation order := (ip_order p).
  Notation n_q := (ip_n_q p).
  Hypothesis HO : (1 <= order)%nat.
  Hypothesis HQ : (1 <= n_q)%nat.
  Hypothesis HNu : (1 <= Nu)%nat.
  Hypothesis S1 : shaped N (order * n_q) (g_x g).
  Hypothesis S2 : shaped N (order * n_q) (g_x_d g).
  Hypothesis S3 : shaped Nu nu (g_u g).
  Hypothesis Sq : shaped N n_q q.
  Hypothesis Sv : shaped N n_q v.
  Hypothesis Su : shaped Nu nu u.

  (** Top-down problems: q_constr takes the values of the polygonal line
      through the positions given. *)
  Lemma custom_td_ok : ip_class p = TD_Pseudospectral -> length (ip_t p) = N -> increasing (ip_t p) -> (2 <= N)%nat ->
    (2 <= ip_n_constr p)%nat -> shaped (ip_n_constr p) n_q (g_q_constr g) ->
    exists g', custom_guess rr p q v a u g = Ok g' /\ g_u g' = u /\
    (forall j, (j < N)%nat -> der_guess order n_q 0 g' j = mrow j q /\ der_guess order n_q 1 g' j = mrow j v /\
      forall k, (2 <= k <= order)%nat -> der_guess order n_q k g' j = der_guess order n_q k g j) /\
    length (g_q_constr g') = ip_n_constr p /\
    forall j, (j < ip_n_constr p)%nat -> held_line (ip_t p) q (vnth (constr_times rr p) j) (mrow j (g_q_constr g')).
  Proof.
    intros HE HL HI H2 HC SC. unfold custom_guess. cbn zeta.
    destruct (set_der_ok order n_q N HO HQ 0 q g ltac:(lia) S1 S2 Sq) as (g1 & -> & A1 & A2 & (R1 & _ & _ & _ & R5) & V1 & _).
    cbn [rbind]. rewrite R1. rewrite (set_all_ok _ _ nu Nu HNu S3 Su). cbn [rbind].
    destruct (set_der_ok order n_q N HO HQ 1 v (with_u u g1) HO A1 A2 Sv) as (g2 & -> & B1 & B2 & (R2 & _ & _ & _ & R6) & V2 & _).
    cbn [rbind]. rewrite HE. cbn [is_equi is_td rbind].
    destruct (interp_all_held (ip_t p) q n_q (constr_times rr p) HI ltac:(lia) ltac:(now rewrite HL)) as (Z & EZ & SZ & VZ).
    rewrite EZ. cbn [rbind].
    rewrite (constr_times_length rr p OK HC) in *.
    rewrite (set_all_ok _ _ n_q (ip_n_constr p)); [|lia|rewrite R6; cbn [with_u g_q_constr]; now rewrite R5|exact SZ].
    cbn [rbind]. eexists. split; [reflexivity|]. split; [exact R2|]. split; [|split; [apply (shaped_length _ _ _ SZ)|exact VZ]].
    intros j Hj. destruct (V1 j Hj) as [K1 K2], (V2 j Hj) as [K3 K4].
    assert (DU : forall k, der_guess order n_q k (with_u u g1) j = der_guess order n_q k g1 j) by reflexivity.
    assert (DC : forall k, der_guess order n_q k (with_q_constr Z g2) j = der_guess order n_q k g2 j) by reflexivity.
    rewrite !DC. split; [|split].
    - rewrite K4, DU, K1 by lia. reflexivity.
    - rewrite K3. reflexivity.
    - intros k Hk. rewrite DC, K4, DU, K2 by lia. reflexivity.
  Qed.

  (** Hermite-Simpson schemes: the interior points take the means of the
      values at the ends of the interval, the accelerations included. *)
  Lemma custom_hs_ok : ip_class p = Equispaced -> (2 <= order)%nat -> sub_in "hs" (ip_scheme p) = true ->
    (2 <= N)%nat -> Nu = N -> shaped N n_q a -> shaped (N - 1) (order * n_q) (g_x_c g) ->
    shaped (N - 1) (order * n_q) (g_x_d_c g) -> shaped (N - 1) nu (g_u_c g) ->
    exists g', custom_guess rr p q v a u g = Ok g' /\ g_u g' = u /\
    (forall j, (j < N)%nat -> der_guess order n_q 0 g' j = mrow j q /\ der_guess order n_q 1 g' j = mrow j v /\
      der_guess order n_q 2 g' j = repeat 0 n_q) /\
    forall j, (j + 1 < N)%nat ->
      let mean M := vdivs (vadd (mrow j M) (mrow (j + 1) M)) 2 in
      der_guess_c order n_q 0 g' j = mean q /\ der_guess_c order n_q 1 g' j = mean v /\ der_guess_c order n_q 2 g' j = mean a /\
      mrow j (g_u_c g') = mean u.
  Proof.
    intros HE H2 HH HN HU Sa S4 S5 S6. unfold custom_guess. cbn zeta.
    destruct (set_der_ok order n_q N HO HQ 0 q g ltac:(lia) S1 S2 Sq) as (g1 & -> & A1 & A2 & (R1 & C1 & D1 & E1 & _) & V1 & _).
    cbn [rbind]. rewrite R1. rewrite (set_all_ok _ _ nu Nu HNu S3 Su). cbn [rbind].
    destruct (set_der_ok order n_q N HO HQ 1 v (with_u u g1) HO A1 A2 Sv) as (g2 & -> & B1 & B2 & (R2 & C2 & D2 & E2 & _) & V2 & _).
    cbn [rbind]. rewrite HE. cbn [is_equi is_td]. unfold set_a_zero. rewrite (proj2 (Nat.ltb_lt 1 order)) by lia.
    destruct (set_der_ok order n_q N HO HQ 2 _ g2 H2 B1 B2 (zeros_rows_shaped _ _ n_q _ B1)) as (g3 & -> & _ & _ & (R3 & C3 & D3 & E3 & _) & V3 & _).
    cbn [rbind]. rewrite HH.
    assert (U1 : shaped (N - 1) (order * n_q) (g_x_c g3)) by (rewrite C3, C2; cbn [with_u g_x_c]; now rewrite C1).
    assert (U2 : shaped (N - 1) (order * n_q) (g_x_d_c g3)) by (rewrite D3, D2; cbn [with_u g_x_d_c]; now rewrite D1).
    destruct (set_der_c_ok order n_q (N - 1) 0 (mid_rows q) g3 HO HQ ltac:(lia) U1 U2 (shaped_mid _ _ _ Sq))
      as (g4 & -> & U3 & U4 & (X4 & Y4 & R4 & E4 & _) & V4). cbn [rbind].
    destruct (set_der_c_ok order n_q (N - 1) 1 (mid_rows v) g4 HO HQ ltac:(lia) U3 U4 (shaped_mid _ _ _ Sv))
      as (g5 & -> & U5 & U6 & (X5 & Y5 & R5 & E5 & _) & V5). cbn [rbind].
    destruct (set_der_c_ok order n_q (N - 1) 2 (mid_rows a) g5 HO HQ ltac:(lia) U5 U6 (shaped_mid _ _ _ Sa))
      as (g6 & -> & U7 & U8 & (X6 & Y6 & R6 & E6 & _) & V6). cbn [rbind].
    assert (Su' : shaped N nu u) by now rewrite <- HU.
    rewrite (set_all_ok _ _ nu (N - 1)); [|lia| |exact (shaped_mid _ _ _ Su')].
    2:{ rewrite E6, E5, E4, E3, E2. cbn [with_u g_u_c]. now rewrite E1. }
    cbn [rbind]. eexists. split; [reflexivity|]. split; [cbn [with_u_c g_u]; rewrite R6, R5, R4, R3, R2; reflexivity|].
    split.
    - intros j Hj. destruct (V1 j Hj) as [K1 K2], (V2 j Hj) as [K3 K4], (V3 j Hj) as [K5 K6].
      assert (DU : forall k, der_guess order n_q k (with_u u g1) j = der_guess order n_q k g1 j) by reflexivity.
      assert (DC : forall k M, der_guess order n_q k (with_u_c M g6) j = der_guess order n_q k g3 j).
      { intros k M. unfold der_guess. cbn [with_u_c g_x g_x_d]. now rewrite X6, X5, X4, Y6, Y5, Y4. }
      rewrite !DC. split; [|split].
      + rewrite K6, K4, DU, K1 by lia. reflexivity.
      + rewrite K6, K3 by lia. reflexivity.
      + rewrite K5. eapply zeros_rows_row; eauto.
    - intros j Hj. assert (Hj' : (j < N - 1)%nat) by lia.
      destruct (V4 j Hj') as [K1 K2], (V5 j Hj') as [K3 K4], (V6 j Hj') as [K5 K6].
      assert (DC : forall k M, der_guess_c order n_q k (with_u_c M g6) j = der_guess_c order n_q k g6 j) by reflexivity.
      rewrite !DC. split; [|split; [|split]].
      + rewrite K6, K4, K1 by lia. now apply mrow_mid with N n_q.
      + rewrite K6, K3 by lia. now apply mrow_mid with N n_q.
      + rewrite K5. now apply mrow_mid with N n_q.
      + cbn [with_u_c g_u_c]. now apply mrow_mid with N nu.
  Qed.
End Custom.

(** ** Concrete cases *)
Lemma custom_example_td rr : real_roots_ok rr -> exists g',
  custom_guess rr (ini_example TD_Pseudospectral "LG") [[1]; [3]; [2]] [[4]; [5]; [6]] [[7]; [8]; [9]] [[1]; [2]; [3]] new_guess = Ok g' /\
  map (der_guess 2 1 0 g') [0; 1; 2]%nat = [[1]; [3]; [2]] /\ mrow 0 (g_q_constr g') = [1].
Proof.
  intros OK.
  destruct (custom_td_ok rr OK (ini_example TD_Pseudospectral "LG") [[1]; [3]; [2]] [[4]; [5]; [6]] [[7]; [8]; [9]] [[1]; [2]; [3]] new_guess 3 3 1)
    as (g' & E & _ & V & _ & C); cbn [ini_example ip_order ip_n_q ip_t ip_class ip_n_constr length]; try lia; try reflexivity;
    try (split; [reflexivity|]; repeat constructor).
  - intros i j Hij. cbn [length] in Hij. destruct i as [|[|i]]; destruct j as [|[|[|j]]]; try lia; unfold vnth; cbn [nth]; lra.
  - exists g'. split; [exact E|]. split.
    + cbn [map]. repeat f_equal; [apply (V 0%nat)|apply (V 1%nat)|apply (V 2%nat)]; lia.
    + destruct (C 0%nat ltac:(cbn; lia)) as (_ & B & _). apply B.
      unfold constr_times. cbn [ini_example ip_t ip_n_constr ip_t_start ip_t_end].
      destruct (LGL_set rr OK 4 ltac:(lia)) as (c & -> & _). unfold tau_to_t_points, with_ends, vnth, tau_to_t. cbn [map nth app]. lra.
Qed.
Lemma custom_example_hs rr : exists g',
  custom_guess rr (ini_example Equispaced "hs") [[1]; [3]; [2]] [[4]; [6]; [6]] [[7]; [9]; [9]] [[1]; [3]; [3]] new_guess = Ok g' /\
  der_guess_c 2 1 0 g' 0 = [2] /\ der_guess_c 2 1 1 g' 0 = [5] /\ der_guess_c 2 1 2 g' 0 = [8] /\ der_guess 2 1 2 g' 0 = [0] /\ mrow 0 (g_u_c g') = [2].
Proof.
  destruct (custom_hs_ok rr (ini_example Equispaced "hs") [[1]; [3]; [2]] [[4]; [6]; [6]] [[7]; [9]; [9]] [[1]; [3]; [3]] new_guess 3 3 1)
    as (g' & E & _ & V & C); cbn [ini_example ip_order ip_n_q ip_t ip_class ip_n_constr length]; try lia; try reflexivity;
    try (split; [reflexivity|]; repeat constructor).
  exists g'. split; [exact E|]. destruct (C 0%nat ltac:(lia)) as (C1 & C2 & C3 & C4). destruct (V 0%nat ltac:(lia)) as (_ & _ & V3).
  cbn [ini_example ip_order ip_n_q] in *. rewrite C1, C2, C3, C4, V3. unfold vdivs, vadd, mrow. cbn [map map2 nth Nat.add repeat].
  repeat split; f_equal; lra.
Qed.
