(** The guesses through waypoints, and the other ones. *)
From Coq Require Import String.
From Verif Require Import Prelude PreludeFacts Poly PolyInterp Mat MatFacts PwModel PwSchemeProofs PwInterpModel PwInterpSpec PwInterpProofs PwLiveProofs PwMoreProofs
  PsModel PsSpec PsPointsProofs PsBaryProofs PsProblemProofs PsApplyProofs PsMoreProofs UtilModel UtilSpec BuTdModel BuTdSpec BuTdProofs
  CostModel DispatchModel EquiModel InitModel InitSpec InitProofs InitLinProofs.
Open Scope string_scope.
Open Scope list_scope.
Open Scope R_scope.

Lemma grad_row_length ts Y m i : (2 <= length ts)%nat -> shaped (length ts) m Y -> (i < length ts)%nat ->
  length (grad_row ts Y i) = m.
Proof.
  intros L S Hi.
  assert (RL : forall k, (k < length ts)%nat -> length (mrow k Y) = m) by (intros; now apply (shaped_row _ _ _ _ S)).
  unfold grad_row. destruct (i =? 0)%nat eqn:E0; [|destruct (i =? length ts - 1)%nat eqn:E1].
  - rewrite vdivs_length. unfold vsub. rewrite map2_length, !RL by lia. lia.
  - rewrite vdivs_length. unfold vsub. rewrite map2_length, !RL by lia. lia.
  - apply Nat.eqb_neq in E0, E1. unfold vadd, vscale. rewrite !map2_length, !map_length, !RL by lia. lia.
Qed.
Lemma gradient_ok ts Y m : increasing ts -> (2 <= length ts)%nat -> shaped (length ts) m Y ->
  exists D, gradient ts Y = Ok D /\ shaped (length ts) m D /\ slopes ts Y D m.
Proof.
  intros I L S. unfold gradient. rewrite (shaped_length _ _ _ S), Nat.eqb_refl. cbn [negb].
  rewrite (proj2 (Nat.ltb_ge _ _) L). eexists. split; [reflexivity|].
  assert (SD : shaped (length ts) m (map (grad_row ts Y) (seq 0 (length ts)))).
  { split; [now rewrite map_length, seq_length|]. rewrite Forall_forall. intros r Hr. apply in_map_iff in Hr.
    destruct Hr as (i & <- & Hi). apply in_seq in Hi. apply grad_row_length; auto. lia. }
  split; [exact SD|]. split; [exact SD|]. intros c Hc. cbn zeta.
  assert (RL : forall k, (k < length ts)%nat -> length (mrow k Y) = m) by (intros; now apply (shaped_row _ _ _ _ S)).
  assert (RW : forall i, (i < length ts)%nat -> mrow i (map (grad_row ts Y) (seq 0 (length ts))) = grad_row ts Y i).
  { intros i Hi. unfold mrow. rewrite (nth_map' _ _ _ 0%nat) by now rewrite seq_length. now rewrite seq_nth by auto. }
  assert (IN : forall i, (i + 1 < length ts)%nat -> vnth ts i < vnth ts (i + 1)) by (intros; apply I; lia).
  split; [|split].
  - intros k b E0 E1. rewrite RW by lia. unfold grad_row. cbn [Nat.eqb].
    rewrite vnth_vdivs, vnth_vsub by (rewrite !RL by lia; reflexivity). rewrite E0, E1.
    pose proof (IN 0%nat ltac:(lia)) as H. cbn [Nat.add] in H. field. lra.
  - intros k b E0 E1. rewrite RW by lia. unfold grad_row.
    assert (Z0 : (length ts - 1 =? 0)%nat = false) by (apply Nat.eqb_neq; lia).
    rewrite Z0, Nat.eqb_refl. replace (length ts - 1 - 1)%nat with (length ts - 2)%nat by lia.
    rewrite vnth_vdivs, vnth_vsub by (rewrite !RL by lia; reflexivity). rewrite E0, E1.
    pose proof (IN (length ts - 2)%nat ltac:(lia)) as H. replace (length ts - 2 + 1)%nat with (length ts - 1)%nat in H by lia.
    field. lra.
  - intros i H0 H1 k b a E. rewrite RW by lia. unfold grad_row.
    assert (Z0 : (i =? 0)%nat = false) by (apply Nat.eqb_neq; lia).
    assert (Z1 : (i =? length ts - 1)%nat = false) by (apply Nat.eqb_neq; lia).
    rewrite Z0, Z1. rewrite !vnth_vadd by (unfold vadd, vscale; rewrite ?map2_length, ?map_length, !RL by lia; lia).
    rewrite !vnth_vscale. rewrite !E by lia.
    pose proof (IN (i - 1)%nat ltac:(lia)) as A. replace (i - 1 + 1)%nat with i in A by lia. pose proof (IN i ltac:(lia)) as B.
    set (x := vnth ts (i - 1)) in *. set (y := vnth ts i) in *. set (z := vnth ts (i + 1)) in *.
    field. repeat split; lra.
Qed.

Lemma gradients_ok ts m k : increasing ts -> (2 <= length ts)%nat -> forall Y, shaped (length ts) m Y ->
  exists Ds, gradients ts Y k = Ok Ds /\ length Ds = k /\ Forall (shaped (length ts) m) Ds /\ successive_slopes ts (Y :: Ds) m.
Proof.
  intros I L. induction k as [|k IH]; intros Y S.
  - exists []. split; [reflexivity|]. split; [reflexivity|]. split; [constructor|]. intros i Hi. simpl in Hi. lia.
  - cbn [gradients]. destruct (gradient_ok ts Y m I L S) as (D & -> & SD & SL). cbn [rbind].
    destruct (IH D SD) as (Ds & -> & LD & FD & SS). cbn [rbind]. exists (D :: Ds).
    split; [reflexivity|]. split; [simpl; lia|]. split; [now constructor|].
    intros [|i] Hi; [exact SL|]. apply (SS i). simpl in Hi |- *. lia.
Qed.

(** Blocks of a row put together from rows of the same length. *)
Lemma concat_length_eq (l : list vec) n : Forall (fun r => length r = n) l -> length (concat l) = (length l * n)%nat.
Proof. induction 1 as [|r l H F IH]; [reflexivity|]. simpl. rewrite app_length, IH. lia. Qed.
Lemma concat_block (l : list vec) n i : Forall (fun r => length r = n) l -> (i < length l)%nat ->
  firstn n (skipn (n * i) (concat l)) = nth i l [].
Proof.
  intros F. revert i. induction F as [|r l H F IH]; intros i Hi; [simpl in Hi; lia|]. destruct i as [|i]; cbn [concat nth].
  - rewrite Nat.mul_0_r. cbn [skipn]. rewrite firstn_app, firstn_all2 by lia. replace (n - length r)%nat with 0%nat by lia.
    cbn [firstn]. apply app_nil_r.
  - rewrite skipn_app, (skipn_all2 r) by lia. cbn [app]. replace (n * S i - length r)%nat with (n * i)%nat by lia.
    apply IH. simpl in Hi. lia.
Qed.
Lemma hcat_shaped n m (l : list mat) : Forall (shaped n m) l -> shaped n (length l * m) (hcat n l).
Proof.
  intros F. split; [unfold hcat; now rewrite map_length, seq_length|]. rewrite Forall_forall. intros r Hr.
  unfold hcat in Hr. apply in_map_iff in Hr. destruct Hr as (i & <- & Hi). apply in_seq in Hi.
  rewrite (concat_length_eq _ m); [now rewrite map_length|]. rewrite Forall_forall. intros r Hr. apply in_map_iff in Hr.
  destruct Hr as (A & <- & HA). rewrite Forall_forall in F. apply (shaped_row n m A); [now apply F|lia].
Qed.
Lemma hcat_slice n m (l : list mat) i j : Forall (shaped n m) l -> (i < length l)%nat -> (j < n)%nat ->
  slice m (m * i) (hcat n l) j = mrow j (nth i l []).
Proof.
  intros F Hi Hj. unfold slice, hcat, mrow at 1. rewrite (nth_map' _ _ _ 0%nat) by now rewrite seq_length.
  rewrite seq_nth by auto. cbn [Nat.add]. rewrite concat_block.
  - now rewrite (nth_map' _ _ _ []) by auto.
  - rewrite Forall_forall. intros r Hr. apply in_map_iff in Hr. destruct Hr as (A & <- & HA). rewrite Forall_forall in F.
    apply (shaped_row n m A); auto.
  - now rewrite map_length.
Qed.

Lemma removelast_firstn' {A} (l : list A) : removelast l = firstn (length l - 1) l.
Proof.
  induction l as [|a l IH]; [reflexivity|]. destruct l as [|b l]; [reflexivity|].
  change (removelast (a :: b :: l)) with (a :: removelast (b :: l)). rewrite IH. simpl. now rewrite Nat.sub_0_r.
Qed.

Section Way.
  Variable rr : list R -> list R.
  Hypothesis OK : real_roots_ok rr.
  Variables (p : ini_problem) (q_points : mat) (t_points : option vec) (u_points : option mat) (g : guess) (nu : nat).
  Notation order := (ip_order p).
  Notation n_q := (ip_n_q p).
  Notation N := (length (ip_t p)).
  Notation tp := (way_times p q_points t_points).
  Notation within := (within_times tp).
  Notation u_times := (u_times p).
  Hypothesis HO : (1 <= order)%nat.
  Hypothesis HQ : (1 <= n_q)%nat.
  Hypothesis HT : ip_t_start p < ip_t_end p.
  Hypothesis HN : (1 <= N)%nat.
  Hypothesis I : increasing tp.
  Hypothesis LT : (2 <= length tp)%nat.
  Hypothesis SP : shaped (length tp) n_q q_points.
  Hypothesis HI : within (ip_t p).
  Hypothesis HF : fresh g N (order * n_q) nu (N - 1) (ip_n_constr p) n_q.
  Hypothesis HC : ip_class p = TD_Pseudospectral -> (2 <= ip_n_constr p)%nat /\ within [ip_t_start p; ip_t_end p].
  Hypothesis HS : ip_class p = Equispaced -> (2 <= N)%nat.
  Hypothesis HU : forall up, u_points = Some up -> shaped (length tp) nu up /\ within u_times /\ shaped (length u_times) nu (g_u g) /\
    (1 <= length u_times)%nat /\ (ip_class p = Equispaced -> length u_times = N).

  Lemma mapm_interp Ds : Forall (shaped (length tp) n_q) Ds ->
    exists Gs, mapm (fun D => interp_all tp D (ip_t p)) Ds = Ok Gs /\ length Gs = length Ds /\ Forall (shaped N n_q) Gs /\
      forall k j, (k < length Ds)%nat -> (j < N)%nat -> polyline tp (nth k Ds []) (vnth (ip_t p) j) (mrow j (nth k Gs [])).
  Proof.
    induction 1 as [|D Ds SD F IH].
    - exists []. split; [reflexivity|]. split; [reflexivity|]. split; [constructor|]. intros k j Hk. simpl in Hk. lia.
    - destruct IH as (Gs & E & LG & FG & VG). destruct (interp_all_polyline tp D n_q (ip_t p) I LT SD HI) as (Z & EZ & SZ & VZ).
      cbn [mapm]. rewrite EZ. cbn [rbind]. rewrite E. cbn [rbind]. exists (Z :: Gs). split; [reflexivity|]. split; [simpl; lia|].
      split; [now constructor|]. intros [|k] j Hk Hj; cbn [nth]; [now apply VZ|]. apply VG; auto. simpl in Hk. lia.
  Qed.

  Lemma way_ok : exists g' Ds, waypoints_guess rr p q_points t_points u_points g = Ok g' /\
    length Ds = (order + 1)%nat /\ nth 0 Ds [] = q_points /\ successive_slopes tp Ds n_q /\
    (forall k j, (k <= order)%nat -> (j < N)%nat -> polyline tp (nth k Ds []) (vnth (ip_t p) j) (der_guess order n_q k g' j)) /\
    (forall j, (j < N)%nat -> skipn n_q (mrow j (g_x g')) = butlastn n_q (mrow j (g_x_d g'))) /\
    (ip_class p = TD_Pseudospectral -> forall j, (j < ip_n_constr p)%nat ->
       polyline tp q_points (vnth (constr_times rr p) j) (mrow j (g_q_constr g'))) /\
    (ip_class p = Equispaced -> sub_in "hs" (ip_scheme p) = true -> forall j, (j + 1 < N)%nat ->
       mrow j (g_x_c g') = vdivs (vadd (mrow j (g_x g')) (mrow (j + 1) (g_x g'))) 2 /\
       mrow j (g_x_d_c g') = vdivs (vadd (mrow j (g_x_d g')) (mrow (j + 1) (g_x_d g'))) 2) /\
    (forall up, u_points = Some up -> forall j, (j < length u_times)%nat -> polyline tp up (vnth u_times j) (mrow j (g_u g'))).
  Proof.
    destruct HF as (F1 & F2 & F3 & F4 & F5 & F6).
    destruct (gradients_ok tp n_q order I LT q_points SP) as (Ds & ED & LD & FD & SS).
    destruct (mapm_interp (q_points :: Ds) (Forall_cons _ SP FD)) as (Gs0 & EG & LG & FG & VG).
    cbn [mapm] in EG. destruct (interp_all tp q_points (ip_t p)) as [Q|] eqn:EQ; [|discriminate]. cbn [rbind] in EG.
    destruct (mapm (fun D => interp_all tp D (ip_t p)) Ds) as [Gs|] eqn:EGs; [|discriminate]. cbn [rbind] in EG.
    assert (EG0 : Q :: Gs = Gs0) by congruence. subst Gs0. clear EG. cbn [length] in LG.
    unfold waypoints_guess. fold tp. cbn zeta. rewrite EQ. cbn [rbind]. rewrite Nat.max_r by exact HO.
    rewrite ED. cbn [rbind]. rewrite EGs. cbn [rbind].
    set (all := Q :: Gs) in *. assert (LA : length all = (order + 1)%nat) by (unfold all; cbn [length]; lia).
    assert (FR : Forall (shaped N n_q) (removelast all)).
    { rewrite removelast_firstn'. rewrite Forall_forall in FG |- *. intros x Hx. apply FG. rewrite <- (firstn_skipn (length all - 1) all). apply in_or_app. now left. }
    assert (LR : length (removelast all) = order) by (rewrite removelast_firstn', firstn_length; lia).
    assert (FT : Forall (shaped N n_q) (tl all)) by (unfold all in *; inversion FG; auto).
    assert (LTl : length (tl all) = order) by (unfold all; cbn [tl]; lia).
    pose proof (hcat_shaped N n_q (removelast all) FR) as X1. rewrite LR in X1.
    pose proof (hcat_shaped N n_q (tl all) FT) as X2. rewrite LTl in X2.
    rewrite (set_all_ok _ _ (order * n_q) N HN) by (auto; rewrite F1; apply shaped_repeat, repeat_length).
    cbn [rbind]. rewrite (set_all_ok _ _ (order * n_q) N HN) by (auto; cbn [with_x g_x_d]; rewrite F2; apply shaped_repeat, repeat_length).
    cbn [rbind]. set (x_guess := hcat N (removelast all)) in *. set (xd_guess := hcat N (tl all)) in *.
    set (g2 := with_x_d xd_guess (with_x x_guess g)).
    (* the guess of the variables of top-down problems *)
    assert (Z : exists g3, (if is_td (ip_class p)
       then do c <- interp_all tp q_points (constr_times rr p); do M <- set_all (g_q_constr g2) c; Ok (with_q_constr M g2)
       else Ok g2) = Ok g3 /\ g_x g3 = x_guess /\ g_x_d g3 = xd_guess /\ g_x_c g3 = g_x_c g /\ g_x_d_c g3 = g_x_d_c g /\
       g_u g3 = g_u g /\ g_u_c g3 = g_u_c g /\
       (ip_class p = TD_Pseudospectral -> forall j, (j < ip_n_constr p)%nat ->
          polyline tp q_points (vnth (constr_times rr p) j) (mrow j (g_q_constr g3)))).
    { destruct (ip_class p) eqn:EC; cbn [is_td];
        try (exists g2; do 7 (split; [reflexivity|]); intros; discriminate).
      destruct (HC eq_refl) as (H2 & W). destruct (constr_times_ok rr p OK HT H2) as (LC & FC).
      assert (WC : within (constr_times rr p)).
      { unfold within_times in *. inversion W as [|? ? W0 W1]; subst. inversion W1 as [|? ? W2 _]; subst.
        rewrite Forall_forall in FC |- *. intros s Hs. specialize (FC s Hs). simpl in FC. lra. }
      destruct (interp_all_polyline tp q_points n_q (constr_times rr p) I LT SP WC) as (C & -> & SC & VC).
      cbn [rbind]. rewrite (set_all_ok _ _ n_q (ip_n_constr p)).
      - cbn [rbind]. eexists. do 7 (split; [reflexivity|]). intros _ j Hj. cbn [with_q_constr g_q_constr]. apply VC. lia.
      - lia.
      - cbn [g2 with_x_d with_x g_q_constr]. rewrite F3. apply shaped_repeat, repeat_length.
      - now rewrite <- LC. }
    destruct Z as (g3 & -> & G1 & G2 & G3 & G4 & G5 & G6 & VC). cbn [rbind].
    assert (Z : exists g4, (if (is_equi (ip_class p) && sub_in "hs" (ip_scheme p))%bool
       then do M <- set_all (g_x_c g3) (mid_rows x_guess); let g := with_x_c M g3 in
            do M <- set_all (g_x_d_c g) (mid_rows xd_guess); Ok (with_x_d_c M g)
       else Ok g3) = Ok g4 /\ g_x g4 = x_guess /\ g_x_d g4 = xd_guess /\ g_u g4 = g_u g /\ g_u_c g4 = g_u_c g /\ g_q_constr g4 = g_q_constr g3 /\
       (ip_class p = Equispaced -> sub_in "hs" (ip_scheme p) = true -> g_x_c g4 = mid_rows x_guess /\ g_x_d_c g4 = mid_rows xd_guess)).
    { destruct (is_equi (ip_class p) && sub_in "hs" (ip_scheme p))%bool eqn:EE.
      - apply andb_prop in EE. destruct EE as [E1 E2].
        assert (EC : ip_class p = Equispaced) by (destruct (ip_class p); try discriminate; reflexivity).
        pose proof (HS EC) as N2.
        rewrite (set_all_ok _ _ (order * n_q) (N - 1)); [|lia|rewrite G3, F4; apply shaped_repeat, repeat_length|now apply shaped_mid].
        cbn [rbind with_x_c g_x_d_c].
        rewrite (set_all_ok _ _ (order * n_q) (N - 1)); [|lia|rewrite G4, F5; apply shaped_repeat, repeat_length|now apply shaped_mid].
        cbn [rbind]. eexists. split; [reflexivity|]. cbn. do 5 (split; [assumption || reflexivity|]). split; reflexivity.
      - exists g3. do 6 (split; [assumption || reflexivity|]). intros EC EH. rewrite EC, EH in EE. discriminate. }
    destruct Z as (g4 & E4 & A1 & A2 & A3 & A4 & A5 & A6). cbn zeta in E4. rewrite E4. clear E4. cbn [rbind].
    assert (Z : exists g5, (match u_points with
      | None => Ok g4
      | Some up => if is_ph (ip_class p) then do u <- interp_all tp up (ip_t p); do M <- set_all (g_u g4) u; Ok (with_u M g4)
        else do u <- interp_all tp up (ip_t_col p); do M <- set_all (g_u g4) u; let g := with_u M g4 in
          if (is_equi (ip_class p) && sub_in "hs" (ip_scheme p))%bool then do M <- set_all (g_u_c g) (mid_rows u); Ok (with_u_c M g) else Ok g
      end) = Ok g5 /\ g_x g5 = g_x g4 /\ g_x_d g5 = g_x_d g4 /\ g_x_c g5 = g_x_c g4 /\ g_x_d_c g5 = g_x_d_c g4 /\ g_q_constr g5 = g_q_constr g4 /\
      (forall up, u_points = Some up -> forall j, (j < length u_times)%nat -> polyline tp up (vnth u_times j) (mrow j (g_u g5)))).
    { destruct u_points as [up|]; [|exists g4; do 6 (split; [reflexivity|]); intros; discriminate].
      destruct (HU up eq_refl) as (SU & WU & SG & LU & LE).
      destruct (interp_all_polyline tp up nu u_times I LT SU WU) as (U & EU & SU' & VU).
      revert EU SU' VU SG LU LE. unfold InitSpec.u_times. destruct (is_ph (ip_class p)) eqn:EP; intros EU SU' VU SG LU LE.
      - rewrite EU. cbn [rbind]. rewrite (set_all_ok _ _ nu N) by (auto; now rewrite A3). cbn [rbind].
        eexists. do 6 (split; [reflexivity|]). intros up' Hup j Hj. replace up' with up by congruence. now apply VU.
      - rewrite EU. cbn [rbind]. rewrite (set_all_ok _ _ nu (length (ip_t_col p))) by (auto; now rewrite A3). cbn [rbind].
        destruct (is_equi (ip_class p) && sub_in "hs" (ip_scheme p))%bool eqn:EE.
        + apply andb_prop in EE. destruct EE as [E1 E2].
          assert (EC : ip_class p = Equispaced) by (destruct (ip_class p); try discriminate; reflexivity).
          pose proof (HS EC) as N2. specialize (LE EC). cbn [with_u g_u_c].
          rewrite (set_all_ok _ _ nu (N - 1)); [|lia|now rewrite A4|].
          * cbn [rbind]. eexists. do 6 (split; [reflexivity|]). intros up' Hup j Hj. replace up' with up by congruence. now apply VU.
          * apply shaped_mid. now rewrite <- LE.
        + eexists. do 6 (split; [reflexivity|]). intros up' Hup j Hj. replace up' with up by congruence. now apply VU. }
    destruct Z as (g5 & E5 & B1 & B2 & B3 & B4 & B5 & VU). cbn zeta in E5. rewrite E5. clear E5.
    exists g5, (q_points :: Ds). split; [reflexivity|]. split; [cbn [length]; lia|]. split; [reflexivity|]. split; [exact SS|].
    assert (DV : forall k j, (k <= order)%nat -> (j < N)%nat -> der_guess order n_q k g5 j = mrow j (nth k all [])).
    { intros k j Hk Hj. destruct (Nat.lt_ge_cases k order) as [C|C].
      - rewrite der_x by auto. rewrite B1, A1. unfold x_guess. rewrite hcat_slice by (auto; lia).
        rewrite removelast_firstn'. f_equal. apply nth_firstn_lt. lia.
      - assert (k = order) by lia. subst k. rewrite (der_x_d order n_q N) by (auto; now rewrite B2, A2).
        rewrite B2, A2. unfold xd_guess. replace (order * n_q - n_q)%nat with (n_q * (order - 1))%nat by (clear - HO; nia).
        rewrite hcat_slice by (auto; lia). unfold all. cbn [tl]. destruct order as [|o]; [lia|].
        replace (S o - 1)%nat with o by lia. reflexivity. }
    split; [|split; [|split; [|split]]].
    - intros k j Hk Hj. rewrite DV by auto. apply VG; auto. cbn [length]. lia.
    - intros j Hj. rewrite B1, B2, A1, A2. unfold x_guess, xd_guess, hcat, mrow.
      rewrite !(nth_map' _ _ _ 0%nat) by now rewrite seq_length. rewrite !seq_nth by auto. cbn [Nat.add].
      unfold all. cbn [tl].
      assert (LQ : length (nth j Q []) = n_q).
      { inversion FG as [|? ? FQ _]; subst. apply (shaped_row N n_q Q); auto. }
      assert (FGs : Forall (shaped N n_q) Gs) by exact FT.
      destruct Gs as [|G0 Gs']; [cbn [length] in LG; lia|].
      change (removelast (Q :: G0 :: Gs')) with (Q :: removelast (G0 :: Gs')). cbn [map concat]. unfold mrow.
      rewrite skipn_app, (skipn_all2 (nth j Q [])) by lia. rewrite LQ, Nat.sub_diag. cbn [skipn app].
      change (nth j G0 [] ++ concat (map (fun M => nth j M []) Gs')) with (concat (map (fun M => nth j M []) (G0 :: Gs'))).
      clear - FGs HQ Hj. set (l := G0 :: Gs') in *. assert (NE : l <> []) by discriminate. clearbody l.
      rewrite (app_removelast_last [] NE) at 2. rewrite map_app, concat_app. cbn [map concat]. rewrite app_nil_r.
      assert (LL : length (nth j (last l []) []) = n_q).
      { rewrite Forall_forall in FGs. apply (shaped_row N n_q (last l [])); auto. apply FGs.
        rewrite (app_removelast_last [] NE) at 2. apply in_or_app. right. now left. }
      unfold butlastn. destruct (n_q =? 0)%nat eqn:E; [apply Nat.eqb_eq in E; lia|].
      rewrite app_length, LL. replace (length (concat (map (fun M => nth j M []) (removelast l))) + n_q - n_q)%nat
        with (length (concat (map (fun M => nth j M []) (removelast l)))) by lia.
      rewrite firstn_app, firstn_all, Nat.sub_diag. cbn [firstn]. now rewrite app_nil_r.
    - intros EC j Hj. rewrite B5, A5. now apply VC.
    - intros EC EH j Hj. destruct (A6 EC EH) as [A7 A8]. rewrite B3, B4, A7, A8, B1, B2, A1, A2.
      split; apply (mrow_mid N (order * n_q)); auto.
    - exact VU.
  Qed.
End Way.
