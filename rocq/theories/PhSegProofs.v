(** One segment of a bottom-up or top-down multi-segment problem: its
    constraints mean that a polynomial trajectory goes through the points of
    the segment and joins its two knots (C40). *)
From Coq Require Import String.
From Coquelicot Require Import Coquelicot.
From Verif Require Import Prelude PreludeFacts Poly PolyFacts PolyInterp Mat MatFacts
  PwInterpModel PsModel JacobiFacts PsSpec PsPointsProofs PsBaryProofs PsNodesProofs PsProblemProofs PsApplyProofs PsInterpProofs
  UtilModel UtilSpec GaussFacts UtilProofs BuTdModel BuTdSpec BuTdFacts BuTdProofs BuTdApplyProofs PhModel PhSpec PhProofs.
Open Scope R_scope.
Open Scope vec_scope.
Open Scope list_scope.

(** ** Putting the ends round the points *)
Definition assemble (l r : bool) (s : vec) (col : mat) (e : vec) : mat :=
  (if l then [] else [s]) ++ col ++ (if r then [] else [e]).

Lemma assemble_length l r s col e : length (assemble l r s col e) = (1 - b2n l + length col + (1 - b2n r))%nat.
Proof. unfold assemble. rewrite !app_length. destruct l, r; simpl; lia. Qed.
Lemma ends_split {A} (full : list A) n : length full = (2 + n)%nat ->
  exists a mid b, full = a :: mid ++ [b] /\ length mid = n.
Proof.
  intros L. destruct full as [|a rest]; [simpl in L; lia|].
  destruct (exists_last (l := rest)) as (mid & b & E).
  { intros ->. simpl in L. lia. }
  exists a, mid, b. subst rest. split; [reflexivity|]. simpl in L. rewrite app_length in L. simpl in L. lia.
Qed.
Lemma take_ends {A} l r (a b : A) mid :
  take (1 - b2n l, 1 - b2n r)%nat (a :: mid ++ [b]) = (if l then [a] else []) ++ mid ++ (if r then [b] else []).
Proof.
  unfold take. cbn [fst snd length]. rewrite app_length. cbn [length].
  destruct l, r; cbn [b2n Nat.sub skipn app]; rewrite ?Nat.sub_0_r, ?app_nil_r.
  - cbn [firstn]. f_equal. apply firstn_all2. rewrite app_length. simpl. lia.
  - replace (length mid + 1)%nat with (S (length mid)) by lia. cbn [firstn]. f_equal.
    rewrite firstn_app, Nat.sub_diag, firstn_all. apply app_nil_r.
  - apply firstn_all2. rewrite app_length. simpl. lia.
  - replace (length mid + 1 - 1)%nat with (length mid) by lia.
    rewrite firstn_app, Nat.sub_diag, firstn_all. apply app_nil_r.
Qed.
Lemma mrow_last_snoc (a b : vec) mid : mrow (length (a :: mid ++ [b]) - 1) (a :: mid ++ [b]) = b.
Proof.
  cbn [length]. rewrite app_length. cbn [length]. replace (S (length mid + 1) - 1)%nat with (S (length mid)) by lia.
  unfold mrow. cbn [nth]. rewrite app_nth2, Nat.sub_diag by lia. reflexivity.
Qed.
Lemma assemble_iff l r n s e col full : length full = (2 + n)%nat -> length col = (b2n l + n + b2n r)%nat ->
  (take (1 - b2n l, 1 - b2n r)%nat full = col /\ mrow 0 full = s /\ mrow (length full - 1) full = e) <->
  (full = assemble l r s col e /\ (l = true -> mrow 0 col = s) /\ (r = true -> mrow (length col - 1) col = e)).
Proof.
  intros L Lc. destruct (ends_split full n L) as (a & mid & b & -> & Lm).
  rewrite take_ends, mrow_last_snoc. unfold mrow at 1. cbn [nth]. split.
  - intros (<- & <- & <-). unfold assemble. repeat split.
    + destruct l, r; cbn [app]; rewrite ?app_nil_r; reflexivity.
    + intros ->. reflexivity.
    + intros ->. rewrite !app_length. destruct l; unfold mrow; cbn [length app]; rewrite ?app_length; cbn [length Nat.add].
      * replace (S (length mid + 1) - 1)%nat with (S (length mid)) by lia. cbn [nth]. rewrite app_nth2, Nat.sub_diag by lia. reflexivity.
      * replace (length mid + 1 - 1)%nat with (length mid) by lia. rewrite app_nth2, Nat.sub_diag by lia. reflexivity.
  - intros (E & S0 & S1). unfold assemble in E. destruct l, r; cbn [app] in E; rewrite ?app_nil_r in E.
    + subst col. specialize (S0 eq_refl). specialize (S1 eq_refl). rewrite mrow_last_snoc in S1. auto.
    + rewrite app_comm_cons in E. apply app_inj_tail in E. destruct E as [E ->]. subst col.
      specialize (S0 eq_refl). cbn [app]. rewrite app_nil_r. auto.
    + injection E as -> E. subst col. specialize (S1 eq_refl). cbn [app]. split; [reflexivity|]. split; [reflexivity|].
      rewrite <- S1. rewrite app_length. cbn [length]. replace (length mid + 1 - 1)%nat with (length mid) by lia.
      unfold mrow. rewrite app_nth2, Nat.sub_diag by lia. reflexivity.
    + injection E as -> E. apply app_inj_tail in E. destruct E as [-> ->]. cbn [app]. rewrite app_nil_r. auto.
Qed.
Lemma assemble_map (f : vec -> vec) l r s col e :
  map f (assemble l r s col e) = assemble l r (f s) (map f col) (f e).
Proof. unfold assemble. rewrite !map_app. destruct l, r; reflexivity. Qed.
Lemma assemble_shaped l r s col e n m : shaped n m col -> length s = m -> length e = m ->
  shaped (1 - b2n l + n + (1 - b2n r)) m (assemble l r s col e).
Proof.
  intros [L F] Ls Le. split; [rewrite assemble_length, L; reflexivity|]. unfold assemble.
  rewrite !Forall_app. destruct l, r; repeat split; auto.
Qed.
Lemma assemble_row l r s col e k : (k < length col)%nat ->
  mrow (1 - b2n l + k) (assemble l r s col e) = mrow k col.
Proof.
  intros H. unfold assemble, mrow. destruct l; cbn [b2n Nat.sub app Nat.add nth]; now rewrite app_nth1.
Qed.
Lemma assemble_first r s col e : mrow 0 (assemble false r s col e) = s.
Proof. reflexivity. Qed.
Lemma assemble_last l s col e : mrow (length (assemble l false s col e) - 1) (assemble l false s col e) = e.
Proof.
  rewrite assemble_length. unfold assemble, mrow. rewrite app_assoc, app_nth2; rewrite app_length; destruct l; cbn [b2n length]; try lia.
  - match goal with |- nth ?a _ _ = _ => replace a with 0%nat by lia end. reflexivity.
  - match goal with |- nth ?a _ _ = _ => replace a with 0%nat by lia end. reflexivity.
Qed.
Lemma assemble_first_gen l r s col e : (l = true -> (1 <= length col)%nat /\ mrow 0 col = s) -> mrow 0 (assemble l r s col e) = s.
Proof.
  intros H. destruct l; [|reflexivity]. destruct (H eq_refl) as [L E]. rewrite <- E.
  apply (assemble_row true r s col e 0). lia.
Qed.
Lemma assemble_last_gen l r s col e : (r = true -> (1 <= length col)%nat /\ mrow (length col - 1) col = e) ->
  mrow (length (assemble l r s col e) - 1) (assemble l r s col e) = e.
Proof.
  intros H. destruct r; [|apply assemble_last]. destruct (H eq_refl) as [L E]. rewrite <- E.
  rewrite assemble_length. cbn [b2n]. replace (1 - b2n l + length col + (1 - 1) - 1)%nat with (1 - b2n l + (length col - 1))%nat by lia.
  apply assemble_row. lia.
Qed.

(** The problem of one segment. *)
Definition seg_problem (p : ph_problem) (n : nat) (t0 t1 : R) : ps_problem :=
  Build_ps_problem (ph_scheme p) n (ph_order p) (ph_n_q p) t0 t1.
Lemma ph_der_assemble p n t0 t1 l r i xs xds col cold xe xde :
  q_and_der (seg_problem p n t0 t1) (assemble l r xs col xe) (assemble l r xds cold xde) i
  = assemble l r (ph_der_row p i xs xds) (ph_der p i col cold) (ph_der_row p i xe xde).
Proof.
  unfold q_and_der, seg_problem, ph_der, ph_der_row. cbn [ps_order ps_n_q].
  destruct (i <? ph_order p)%nat; unfold mcols, mlastcols; apply assemble_map.
Qed.
Lemma ph_der_length p i X XD n : length X = n -> length XD = n -> length (ph_der p i X XD) = n.
Proof. intros A B. unfold ph_der, mcols, mlastcols. destruct (i <? ph_order p)%nat; now rewrite map_length. Qed.
Lemma ph_der_mrow p i X XD k : (k < length X)%nat -> (k < length XD)%nat ->
  mrow k (ph_der p i X XD) = ph_der_row p i (mrow k X) (mrow k XD).
Proof.
  intros A B. unfold ph_der, ph_der_row. destruct (i <? ph_order p)%nat; [now apply mrow_mcols|now apply mrow_lastcols].
Qed.
Lemma slice_len {A} (v : list A) n k M : length v = (M * n)%nat -> (k < M)%nat -> length (slice (n * k) (n * (k + 1)) v) = n.
Proof. intros L H. rewrite slice_length. nia. Qed.
(** Rows with the same blocks are equal. *)
Lemma rows_of_blocks p (x y xd yd : vec) : (1 <= ph_order p)%nat ->
  length x = (ph_order p * ph_n_q p)%nat -> length y = (ph_order p * ph_n_q p)%nat ->
  (forall i, (i <= ph_order p)%nat -> ph_der_row p i x xd = ph_der_row p i y yd) <->
  (x = y /\ lastn (ph_n_q p) xd = lastn (ph_n_q p) yd).
Proof.
  intros O Lx Ly. split.
  - intros H. split.
    + set (f := fun k => firstn (ph_n_q p) (slice (ph_n_q p * k) (ph_n_q p * (k + 1)) y ++ repeat 0 (ph_n_q p))).
      assert (F : forall k, length (f k) = ph_n_q p).
      { intros k. unfold f. rewrite firstn_length, app_length, repeat_length. lia. }
      assert (G : forall k, (k < ph_order p)%nat -> f k = slice (ph_n_q p * k) (ph_n_q p * (k + 1)) y).
      { intros k Hk. unfold f. assert (L := slice_len y (ph_n_q p) k (ph_order p) Ly Hk).
        rewrite firstn_app, L, Nat.sub_diag. cbn [firstn]. rewrite app_nil_r. apply firstn_all2. lia. }
      transitivity (flat_map f (seq 0 (ph_order p))).
      * apply (blocks_iff f (ph_n_q p)); auto. intros k Hk. rewrite G by exact Hk.
        specialize (H k ltac:(lia)). unfold ph_der_row in H. apply Nat.ltb_lt in Hk. now rewrite Hk in H.
      * symmetry. apply (blocks_iff f (ph_n_q p)); auto. intros k Hk. now rewrite G.
    + specialize (H (ph_order p) (Nat.le_refl _)). unfold ph_der_row in H. now rewrite Nat.ltb_irrefl in H.
  - intros [-> E] i Hi. unfold ph_der_row. destruct (i <? ph_order p)%nat; [reflexivity|exact E].
Qed.

Lemma lastn_full_rate M P t nq : (1 <= M)%nat -> (1 <= nq)%nat -> length P = nq -> lastn nq (full_rate M P t) = rate_n_at M P t.
Proof.
  intros HM Hq L. destruct M; [lia|]. rewrite full_rate_split. apply lastn_app; [now rewrite rate_n_length|lia].
Qed.

(** ** The collocation solution of the assembled arrays *)
Section Assembled.
Variable dyn : vec -> vec -> vec -> vec -> vec.
Variables (n nq M : nat) (t0 t1 : R) (l r : bool) (c : vec).
Variables (xs xe xds xde : vec) (col cold u : mat) (lam : nat -> vec).
Let tc := tau_to_t_points (with_ends l r c) t0 t1.
Let tx := tau_to_t_points (with_ends true true c) t0 t1.
Let N := length (with_ends l r c).
Let X := assemble l r xs col xe.
Let XD := assemble l r xds cold xde.

Lemma assembled_solution P : (1 <= nq)%nat -> (1 <= M)%nat -> (1 <= N)%nat -> t0 <> t1 -> NoDup (with_ends true true c) ->
  length col = N -> length cold = N ->
  order_solution dyn n nq M tx tc X XD u (map lam (seq 0 N)) P /\
  (l = true -> mrow 0 col = xs /\ lastn nq (mrow 0 cold) = lastn nq xds) /\
  (r = true -> mrow (N - 1) col = xe /\ lastn nq (mrow (N - 1) cold) = lastn nq xde) <->
  motion_on dyn n nq M t0 t1 xs xe tc (fun k => mrow k col) (fun k => mrow k cold) (fun k => mrow k u) lam P /\
  lastn nq xds = rate_n_at M P t0 /\ lastn nq xde = rate_n_at M P t1.
Proof.
  intros Q O HN T ND Lc Ld.
  assert (LN : N = (b2n l + length c + b2n r)%nat) by apply with_ends_length.
  assert (Ltc : length tc = N) by apply times_length.
  assert (Ltx : length tx = (2 + length c)%nat).
  { unfold tx. rewrite times_length, with_ends_length. simpl. lia. }
  assert (LX : length X = (2 + length c)%nat).
  { unfold X. rewrite assemble_length, Lc, LN. destruct l, r; simpl; lia. }
  assert (LXD : length XD = (2 + length c)%nat).
  { unfold XD. rewrite assemble_length, Ld, LN. destruct l, r; simpl; lia. }
  assert (TI : forall k, (k < N)%nat -> (1 - b2n l + k < 2 + length c)%nat /\ vnth tc k = vnth tx (1 - b2n l + k)).
  { intros k Hk. apply times_coll. lia. }
  assert (RX : forall k, (k < N)%nat -> mrow (1 - b2n l + k) X = mrow k col) by (intros k Hk; apply assemble_row; lia).
  assert (RXD : forall k, (k < N)%nat -> mrow (1 - b2n l + k) XD = mrow k cold) by (intros k Hk; apply assemble_row; lia).
  assert (T0 : vnth tx 0 = t0).
  { unfold tx. rewrite vnth_times by (rewrite with_ends_length; simpl; lia). rewrite with_ends_first. apply tau_start. }
  assert (T1 : vnth tx (1 + length c) = t1).
  { unfold tx. rewrite vnth_times by (rewrite with_ends_length; simpl; lia).
    replace (1 + length c)%nat with (length (with_ends true true c) - 1)%nat by (rewrite with_ends_length; simpl; lia).
    rewrite with_ends_last. apply tau_end. }
  assert (LAM : forall k, (k < N)%nat -> mrow k (map lam (seq 0 N)) = lam k).
  { intros k Hk. unfold mrow. rewrite (nth_map' _ _ _ 0%nat) by (now rewrite seq_length). now rewrite seq_nth. }
  split.
  - intros ((LP & BP & A1 & A2 & A3 & A4) & Hl & Hr). rewrite Ltx in A1, A2, A3. rewrite Ltc in A3, A4.
    assert (F0 : full_state M P t0 = xs /\ lastn nq xds = rate_n_at M P t0).
    { pose proof (A1 0%nat ltac:(lia)) as B1. pose proof (A2 0%nat ltac:(lia)) as B2. rewrite T0 in B1, B2.
      rewrite <- B1, <- B2. destruct (Bool.bool_dec l true) as [El|El].
      - destruct (Hl El) as [H1 H2]. rewrite <- H1, <- H2.
        assert (Z : (1 - b2n l + 0)%nat = 0%nat) by (rewrite El; reflexivity).
        pose proof (RX 0%nat ltac:(lia)) as R1. pose proof (RXD 0%nat ltac:(lia)) as R2. rewrite Z in R1, R2.
        rewrite R1, R2. split; reflexivity.
      - apply Bool.not_true_is_false in El. unfold X, XD. rewrite El. split; reflexivity. }
    assert (F1 : full_state M P t1 = xe /\ lastn nq xde = rate_n_at M P t1).
    { pose proof (A1 (1 + length c)%nat ltac:(lia)) as B1. pose proof (A2 (1 + length c)%nat ltac:(lia)) as B2. rewrite T1 in B1, B2.
      rewrite <- B1, <- B2. destruct (Bool.bool_dec r true) as [El|El].
      - destruct (Hr El) as [H1 H2]. rewrite <- H1, <- H2.
        replace (1 + length c)%nat with (1 - b2n l + (N - 1))%nat by (rewrite LN, El; destruct l; simpl; lia).
        rewrite RX, RXD by lia. split; reflexivity.
      - apply Bool.not_true_is_false in El. replace (1 + length c)%nat with (length X - 1)%nat at 1 by lia.
        replace (1 + length c)%nat with (length XD - 1)%nat by lia. unfold X, XD. rewrite El, !assemble_last. split; reflexivity. }
    destruct F0 as [F0 G0]. destruct F1 as [F1 G1]. split; [|split; assumption].
    split; [exact LP|]. split; [exact BP|]. split; [exact F0|]. split; [exact F1|].
    rewrite Ltc. intros k Hk. destruct (TI k Hk) as [I1 I2].
    assert (E1 : mrow k col = full_state M P (vnth tc k)) by (rewrite <- RX, I2 by exact Hk; apply A1; exact I1).
    assert (E2 : mrow k cold = full_rate M P (vnth tc k)).
    { rewrite <- RXD by exact Hk. apply A3; auto. }
    split; [exact E1|]. split; [exact E2|]. rewrite E1, E2. rewrite <- LAM by exact Hk. now apply A4.
  - intros ((LP & BP & F0 & F1 & A) & G0 & G1). rewrite Ltc in A.
    assert (CN : forall k, (k < N)%nat -> lastn nq (mrow k cold) = rate_n_at M P (vnth tc k)).
    { intros k Hk. destruct (A k Hk) as (_ & -> & _). now apply lastn_full_rate. }
    assert (E0 : l = true -> mrow 0 col = xs /\ lastn nq (mrow 0 cold) = lastn nq xds).
    { intros El. destruct (TI 0%nat ltac:(lia)) as [_ I]. rewrite El in I. cbn [b2n Nat.sub Nat.add] in I. rewrite T0 in I.
      destruct (A 0%nat ltac:(lia)) as (-> & _ & _). rewrite CN by lia. rewrite I, G0. auto. }
    assert (E1 : r = true -> mrow (N - 1) col = xe /\ lastn nq (mrow (N - 1) cold) = lastn nq xde).
    { intros El. destruct (TI (N - 1)%nat ltac:(lia)) as [_ I].
      replace (1 - b2n l + (N - 1))%nat with (1 + length c)%nat in I by (rewrite LN, El; destruct l; simpl; lia). rewrite T1 in I.
      destruct (A (N - 1)%nat ltac:(lia)) as (-> & _ & _). rewrite CN by lia. rewrite I, G1. auto. }
    split; [|split; assumption].
    assert (CASES : forall i, (i < 2 + length c)%nat ->
       mrow i X = full_state M P (vnth tx i) /\ lastn nq (mrow i XD) = rate_n_at M P (vnth tx i)).
    { intros i Hi. destruct (Nat.lt_ge_cases i (1 - b2n l)) as [C1|C1].
      - assert (El : l = false) by (destruct l; [simpl in C1; lia|reflexivity]).
        assert (i = 0)%nat by lia. subst i. rewrite T0. unfold X, XD. rewrite El. cbn [assemble app mrow nth].
        unfold mrow, assemble. cbn [app nth]. rewrite G0, F0. auto.
      - destruct (Nat.lt_ge_cases (i - (1 - b2n l)) N) as [C2|C2].
        + destruct (TI _ C2) as [_ I]. replace (1 - b2n l + (i - (1 - b2n l)))%nat with i in I by lia.
          specialize (RX _ C2). specialize (RXD _ C2). replace (1 - b2n l + (i - (1 - b2n l)))%nat with i in RX, RXD by lia.
          rewrite RX, RXD, <- I. destruct (A _ C2) as (-> & _ & _). rewrite CN by exact C2. auto.
        + assert (El : r = false) by (destruct r; [rewrite LN in C2; destruct l; simpl in *; lia|reflexivity]).
          assert (i = 1 + length c)%nat by (rewrite LN, El in C2; destruct l; simpl in *; lia). subst i. rewrite T1.
          replace (1 + length c)%nat with (length X - 1)%nat at 1 by lia.
          replace (1 + length c)%nat with (length XD - 1)%nat by lia. unfold X, XD. rewrite El, !assemble_last, G1, F1. auto. }
    split; [exact LP|]. split; [exact BP|]. rewrite Ltx, Ltc.
    split; [intros i Hi; now apply CASES|]. split; [intros i Hi; now apply CASES|]. split.
    + intros i k Hi Hk E. destruct (TI k Hk) as [I1 I2]. rewrite I2 in E.
      assert (i = 1 - b2n l + k)%nat.
      { unfold vnth in E. apply (NoDup_nth tx 0) in E; try lia. apply times_NoDup; assumption. }
      subst i. rewrite RXD by exact Hk. now destruct (A k Hk) as (_ & -> & _).
    + intros k Hk. rewrite LAM by exact Hk. destruct (A k Hk) as (E2 & E3 & E4). now rewrite E2, E3 in E4.
Qed.
End Assembled.
