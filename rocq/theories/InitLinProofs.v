(** The guesses of _Lin_init, _Zero_init, _Waypoints_init and _Custom_init. *)
From Coq Require Import String.
From Verif Require Import Prelude PreludeFacts Poly PolyInterp Mat MatFacts PwModel PwSchemeProofs PwInterpModel PwInterpSpec PwInterpProofs PwLiveProofs PwMoreProofs
  PsModel PsSpec PsPointsProofs PsBaryProofs PsProblemProofs PsApplyProofs PsMoreProofs UtilModel UtilSpec BuTdModel BuTdSpec BuTdProofs
  CostModel DispatchModel EquiModel InitModel InitSpec InitProofs.
Open Scope string_scope.
Open Scope list_scope.
Open Scope R_scope.

Lemma zeros_rows_shaped N m n_q M : shaped N m M -> shaped N n_q (zeros_rows n_q M).
Proof. intros S. unfold zeros_rows. rewrite (shaped_length _ _ _ S). apply shaped_repeat, repeat_length. Qed.
Lemma zeros_rows_row N m n_q M j : shaped N m M -> (j < N)%nat -> mrow j (zeros_rows n_q M) = repeat 0 n_q.
Proof. intros S H. unfold zeros_rows. rewrite (shaped_length _ _ _ S). now apply mrow_repeat. Qed.
Lemma slice_zero n a N m j : (a + n <= m)%nat -> (j < N)%nat -> slice n a (repeat (repeat 0 m) N) j = repeat 0 n.
Proof.
  intros H Hj. unfold slice. rewrite mrow_repeat by auto. apply nth_ext with 0 0.
  - rewrite firstn_length, skipn_length, !repeat_length. lia.
  - intros i Hi. rewrite firstn_length, skipn_length, repeat_length in Hi. rewrite nth_firstn_lt by lia.
    rewrite nth_skipn', !nth_repeat. reflexivity.
Qed.
Lemma der_zero order n_q N i g j : (1 <= order)%nat -> (1 <= n_q)%nat -> (i <= order)%nat -> (j < N)%nat ->
  g_x g = repeat (repeat 0 (order * n_q)) N -> g_x_d g = repeat (repeat 0 (order * n_q)) N ->
  der_guess order n_q i g j = repeat 0 n_q.
Proof.
  intros HO HQ Hi Hj E1 E2. destruct (Nat.lt_ge_cases i order) as [C|C].
  - rewrite der_x by auto. rewrite E1. apply slice_zero; auto. now apply nq_le.
  - rewrite (der_x_d order n_q N) by (auto; rewrite E2; apply shaped_repeat, repeat_length). rewrite E2.
    apply slice_zero; auto. pose proof (nq_le order n_q 0 HO). lia.
Qed.

Lemma constr_times_ok rr p : real_roots_ok rr -> ip_t_start p < ip_t_end p -> (2 <= ip_n_constr p)%nat ->
  length (constr_times rr p) = ip_n_constr p /\ Forall (fun s => ip_t_start p <= s <= ip_t_end p) (constr_times rr p).
Proof.
  intros OK H H2. unfold constr_times.
  destruct (LGL_set rr OK (ip_n_constr p) H2) as (c & E & S).
  destruct (matrix_D_nu_ok rr OK (ip_n_constr p) H2) as (_ & _ & _ & L & _).
  split; [now rewrite times_length|]. rewrite Forall_forall. intros s Hs.
  unfold tau_to_t_points in Hs. apply in_map_iff in Hs. destruct Hs as (a & <- & Ha).
  assert (B : -1 <= a <= 1).
  { rewrite E in Ha. unfold with_ends in Ha. destruct S as (_ & _ & S).
    apply in_app_or in Ha. destruct Ha as [[<-|[]]|Ha]; [lra|]. apply in_app_or in Ha.
    destruct Ha as [Ha|[<-|[]]]; [|lra]. rewrite Forall_forall in S. specialize (S a Ha). simpl in S. lra. }
  unfold tau_to_t. split; nra.
Qed.

Lemma vdivs_length a k : length (vdivs a k) = length a.
Proof. unfold vdivs. apply map_length. Qed.
Lemma line_mid t0 t1 a b s s' : length b = length a ->
  vdivs (vadd (line t0 t1 a b s) (line t0 t1 a b s')) 2 = line t0 t1 a b ((s + s') / 2).
Proof.
  intros H. apply vec_ext.
  - rewrite vdivs_length. unfold vadd. rewrite map2_length, !line_length; auto; lia.
  - intros i Hi. rewrite vdivs_length in Hi. unfold vadd in Hi. rewrite map2_length, !line_length in Hi by auto.
    rewrite vnth_vdivs. rewrite vnth_vadd by (rewrite !line_length; auto).
    rewrite !vnth_line by (auto; lia). unfold Rdiv. set (c := / (t1 - t0)). field.
Qed.

Section Lin.
  Variable rr : list R -> list R.
  Hypothesis OK : real_roots_ok rr.
  Variables (p : ini_problem) (q_s q_e : vec) (g : guess) (nu : nat).
  Notation order := (ip_order p).
  Notation n_q := (ip_n_q p).
  Notation N := (length (ip_t p)).
  Hypothesis HO : (1 <= order)%nat.
  Hypothesis HQ : (1 <= n_q)%nat.
  Hypothesis HT : ip_t_start p < ip_t_end p.
  Hypothesis HN : (1 <= N)%nat.
  Hypothesis HI : Forall (fun s => ip_t_start p <= s <= ip_t_end p) (ip_t p).
  Hypothesis HF : fresh g N (order * n_q) nu (N - 1) (ip_n_constr p) n_q.
  Hypothesis HC : ip_class p = TD_Pseudospectral -> (2 <= ip_n_constr p)%nat.
  Hypothesis L1 : length q_s = n_q.
  Hypothesis L2 : length q_e = n_q.
  Notation path := (line (ip_t_start p) (ip_t_end p) q_s q_e).
  Notation slope := (vdivs (vsub q_e q_s) (ip_t_end p - ip_t_start p)).

  Lemma lin_ok : exists g', lin_guess rr p (Q_array q_s) (Q_array q_e) g = Ok g' /\
    (forall j, (j < N)%nat ->
       der_guess order n_q 0 g' j = path (vnth (ip_t p) j) /\ der_guess order n_q 1 g' j = slope /\
       forall k, (2 <= k <= order)%nat -> der_guess order n_q k g' j = repeat 0 n_q) /\
    (ip_class p = TD_Pseudospectral -> forall j, (j < ip_n_constr p)%nat ->
       mrow j (g_q_constr g') = path (vnth (constr_times rr p) j)) /\
    (ip_class p = Equispaced -> (2 <= order)%nat -> sub_in "hs" (ip_scheme p) = true -> forall j, (j + 1 < N)%nat ->
       der_guess_c order n_q 0 g' j = path ((vnth (ip_t p) j + vnth (ip_t p) (j + 1)) / 2) /\
       der_guess_c order n_q 1 g' j = slope /\
       forall k, (2 <= k <= order)%nat -> der_guess_c order n_q k g' j = repeat 0 n_q) /\
    ((2 <= order)%nat -> forall j, (j < N)%nat -> firstn (order * n_q - n_q) (mrow j (g_x_d g')) = repeat 0 (order * n_q - n_q)).
  Proof.
    destruct HF as (F1 & F2 & F3 & F4 & F5 & _).
    assert (S1 : shaped N (order * n_q) (g_x g)) by (rewrite F1; apply shaped_repeat, repeat_length).
    assert (S2 : shaped N (order * n_q) (g_x_d g)) by (rewrite F2; apply shaped_repeat, repeat_length).
    assert (S4 : shaped (N - 1) (order * n_q) (g_x_c g)) by (rewrite F4; apply shaped_repeat, repeat_length).
    assert (S5 : shaped (N - 1) (order * n_q) (g_x_d_c g)) by (rewrite F5; apply shaped_repeat, repeat_length).
    destruct (interp_ends (ip_t_start p) (ip_t_end p) q_s q_e n_q (ip_t p) HT L1 L2 HI) as (Q & EQ & SQ & VQ).
    assert (SV : shaped N n_q (repeat slope N)).
    { apply shaped_repeat. rewrite vdivs_length. unfold vsub. rewrite map2_length. lia. }
    unfold lin_guess. rewrite L1, L2, Nat.eqb_refl. cbn [negb]. cbn zeta. rewrite EQ. cbn [rbind].
    destruct (set_der_ok order n_q N HO HQ 0 Q g ltac:(lia) S1 S2 SQ) as (g1 & -> & A1 & A2 & (R1 & R2 & R3 & R4 & R5) & V1 & W1).
    cbn [rbind].
    destruct (set_der_ok order n_q N HO HQ 1 (repeat slope N) g1 HO A1 A2 SV) as (g2 & E2 & B1 & B2 & (P1 & P2 & P3 & P4 & P5) & V2 & W2).
    rewrite E2. cbn [rbind].
    assert (Z : exists g3, (if is_td (ip_class p)
       then do c <- interp_all [ip_t_start p; ip_t_end p] [q_s; q_e] (constr_times rr p);
            do M <- set_all (g_q_constr g2) c; Ok (with_q_constr M g2)
       else Ok g2) = Ok g3 /\ g_x g3 = g_x g2 /\ g_x_d g3 = g_x_d g2 /\ g_x_c g3 = g_x_c g2 /\ g_x_d_c g3 = g_x_d_c g2 /\
       (ip_class p = TD_Pseudospectral -> forall j, (j < ip_n_constr p)%nat ->
          mrow j (g_q_constr g3) = path (vnth (constr_times rr p) j))).
    { destruct (ip_class p) eqn:EC; cbn [is_td];
        try (exists g2; do 5 (split; [reflexivity|]); intros; discriminate).
      destruct (constr_times_ok rr p OK HT (HC eq_refl)) as (LC & FC).
      destruct (interp_ends (ip_t_start p) (ip_t_end p) q_s q_e n_q (constr_times rr p) HT L1 L2 FC) as (C & EC' & SC & VC).
      rewrite EC'. cbn [rbind]. rewrite (set_all_ok _ _ n_q (ip_n_constr p)).
      - cbn [rbind]. eexists. do 5 (split; [reflexivity|]). intros _ j Hj. cbn [with_q_constr g_q_constr]. apply VC. lia.
      - specialize (HC eq_refl). lia.
      - rewrite P5, R5, F3. apply shaped_repeat, repeat_length.
      - now rewrite <- LC. }
    destruct Z as (g3 & -> & G1 & G2 & G3 & G4 & VC). cbn [rbind].
    assert (DE : forall k j, der_guess order n_q k g3 j = der_guess order n_q k g2 j).
    { intros. unfold der_guess. now rewrite G1, G2. }
    assert (DC : forall k j, der_guess_c order n_q k g3 j = der_guess_c order n_q k g j).
    { intros. unfold der_guess_c. now rewrite G3, G4, P2, P3, R2, R3. }
    assert (W3 : forall j, (j < N)%nat -> slice (order * n_q - n_q) 0 (g_x_d g3) j = repeat 0 (order * n_q - n_q)).
    { intros j Hj. rewrite G2, W2, W1, F2 by auto. apply slice_zero; auto. lia. }
    assert (C1 : shaped N (order * n_q) (g_x g3)) by now rewrite G1.
    assert (C2 : shaped N (order * n_q) (g_x_d g3)) by now rewrite G2.
    assert (D0 : forall j, (j < N)%nat -> der_guess order n_q 0 g3 j = path (vnth (ip_t p) j)).
    { intros j Hj. rewrite DE. rewrite (proj2 (V2 j Hj)) by lia. rewrite (proj1 (V1 j Hj)). now apply VQ. }
    assert (D1 : forall j, (j < N)%nat -> der_guess order n_q 1 g3 j = slope).
    { intros j Hj. rewrite DE. rewrite (proj1 (V2 j Hj)). now apply mrow_repeat. }
    assert (D2 : forall j, (j < N)%nat -> forall k, (2 <= k <= order)%nat -> der_guess order n_q k g3 j = repeat 0 n_q).
    { intros j Hj k Hk. rewrite DE. rewrite (proj2 (V2 j Hj)) by lia. rewrite (proj2 (V1 j Hj)) by lia.
      apply (der_zero order n_q N); auto. lia. }
    destruct ((1 <? order)%nat && is_equi (ip_class p))%bool eqn:EE.
    - apply andb_prop in EE. destruct EE as [EO EC]. apply Nat.ltb_lt in EO.
      assert (EC' : ip_class p = Equispaced) by (destruct (ip_class p); try discriminate; reflexivity).
      destruct (set_der_ok order n_q N HO HQ 2 (zeros_rows n_q (g_x g3)) g3 ltac:(lia) C1 C2 (zeros_rows_shaped _ _ n_q _ C1))
        as (g4 & -> & T1 & T2 & (M1 & M2 & M3 & M4 & M5) & V4 & W4). cbn [rbind].
      assert (D4 : forall j, (j < N)%nat ->
         der_guess order n_q 0 g4 j = path (vnth (ip_t p) j) /\ der_guess order n_q 1 g4 j = slope /\
         forall k, (2 <= k <= order)%nat -> der_guess order n_q k g4 j = repeat 0 n_q).
      { intros j Hj. destruct (V4 j Hj) as [K1 K2]. split; [rewrite K2 by lia; now apply D0|].
        split; [rewrite K2 by lia; now apply D1|]. intros k Hk. destruct (Nat.eq_dec k 2) as [->|Hn].
        - rewrite K1. eapply zeros_rows_row; eauto.
        - rewrite K2 by lia. now apply D2. }
      assert (W : forall j, (j < N)%nat -> firstn (order * n_q - n_q) (mrow j (g_x_d g4)) = repeat 0 (order * n_q - n_q)).
      { intros j Hj. rewrite <- (W3 j Hj), <- (W4 j Hj). reflexivity. }
      destruct (sub_in "hs" (ip_scheme p)) eqn:EH.
      + assert (U1 : shaped (N - 1) (order * n_q) (g_x_c g4)) by now rewrite M2, G3, P2, R2.
        assert (U2 : shaped (N - 1) (order * n_q) (g_x_d_c g4)) by now rewrite M3, G4, P3, R3.
        assert (DC4 : forall k j, der_guess_c order n_q k g4 j = der_guess_c order n_q k g j).
        { intros. rewrite <- DC. unfold der_guess_c. now rewrite M2, M3. }
        destruct (set_der_c_ok order n_q (N - 1) 0 (mid_rows Q) g4 HO HQ ltac:(lia) U1 U2 (shaped_mid _ _ _ SQ))
          as (g5 & -> & U3 & U4 & (O1 & O2 & O3 & O4 & O5) & V5). cbn [rbind].
        assert (SV' : shaped (N - 1) n_q (skipn 1 (repeat slope N))).
        { replace (skipn 1 (repeat slope N)) with (repeat slope (N - 1)).
          - apply shaped_repeat. rewrite vdivs_length. unfold vsub. rewrite map2_length. lia.
          - destruct N as [|k]; [reflexivity|]. simpl. now rewrite Nat.sub_0_r. }
        destruct (set_der_c_ok order n_q (N - 1) 1 (skipn 1 (repeat slope N)) g5 HO HQ HO U3 U4 SV')
          as (g6 & -> & U5 & U6 & (H1 & H2 & H3 & H4 & H5) & V6). cbn [rbind].
        destruct (set_der_c_ok order n_q (N - 1) 2 (zeros_rows n_q (g_x_c g6)) g6 HO HQ ltac:(lia) U5 U6 (zeros_rows_shaped _ _ n_q _ U5))
          as (g7 & -> & U7 & U8 & (J1 & J2 & J3 & J4 & J5) & V7).
        exists g7. split; [reflexivity|].
        assert (DG : forall k j, der_guess order n_q k g7 j = der_guess order n_q k g4 j).
        { intros. unfold der_guess. now rewrite J1, J2, H1, H2, O1, O2. }
        split; [|split; [|split]].
        * intros j Hj. destruct (D4 j Hj) as (K1 & K2 & K3). rewrite !DG. split; [exact K1|]. split; [exact K2|].
          intros k Hk. rewrite DG. now apply K3.
        * intros K. rewrite K in EC'. discriminate.
        * intros _ _ _ j Hj. assert (Hj' : (j < N - 1)%nat) by lia.
          destruct (V5 j Hj') as [A B]. destruct (V6 j Hj') as [A' B']. destruct (V7 j Hj') as [A'' B''].
          split; [|split].
          -- rewrite B'' by lia. rewrite B' by lia. rewrite A. rewrite (mrow_mid N n_q) by auto.
             rewrite !VQ by lia. apply line_mid. lia.
          -- rewrite B'' by lia. rewrite A'. unfold mrow. rewrite nth_skipn'. apply (mrow_repeat N). lia.
          -- intros k Hk. destruct (Nat.eq_dec k 2) as [->|Hn].
             ++ rewrite A''. eapply zeros_rows_row; eauto.
             ++ rewrite B'' by lia. rewrite B' by lia. rewrite B by lia. rewrite DC4.
                exact (der_zero order n_q (N - 1) k (swap g) j HO HQ ltac:(lia) Hj' F4 F5).
        * intros _ j Hj. rewrite J2, H2, O2. now apply W.
      + exists g4. split; [reflexivity|]. split; [exact D4|]. split; [|split].
        * intros K. rewrite K in EC'. discriminate.
        * intros _ _ K. discriminate.
        * intros _. exact W.
    - exists g3. split; [reflexivity|]. split; [|split; [|split]].
      + intros j Hj. split; [now apply D0|]. split; [now apply D1|now apply D2].
      + exact VC.
      + intros K H. rewrite K in EE. rewrite (proj2 (Nat.ltb_lt 1 order)) in EE by lia. discriminate.
      + intros _ j Hj. exact (W3 j Hj).
  Qed.
End Lin.
