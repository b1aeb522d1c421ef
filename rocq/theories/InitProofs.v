(** What the initial guesses are. *)
From Coq Require Import String.
From Verif Require Import Prelude PreludeFacts Poly PolyInterp Mat MatFacts PwModel PwSchemeProofs PwInterpModel PwInterpSpec PwInterpProofs PwLiveProofs PwMoreProofs
  PsModel PsSpec PsPointsProofs PsBaryProofs PsProblemProofs PsApplyProofs PsMoreProofs UtilModel UtilSpec BuTdModel CostModel DispatchModel EquiModel InitModel InitSpec.
Open Scope string_scope.
Open Scope list_scope.
Open Scope R_scope.

(** ** Setting columns *)
Definition slice (n a : nat) (M : mat) (j : nat) : vec := firstn n (skipn a (mrow j M)).

Lemma forallb_width n B N : shaped N n B -> forallb (fun r => (length r =? n)%nat) B = true.
Proof.
  intros [_ F]. apply forallb_forall. intros r Hr. rewrite Forall_forall in F. apply Nat.eqb_eq. now apply F.
Qed.
Lemma set_cols_ok a n M B m N : shaped N m M -> shaped N n B -> (a + n <= m)%nat ->
  exists M', set_cols a n M B = Ok M' /\ shaped N m M' /\
    forall j, (j < N)%nat -> slice n a M' j = mrow j B /\
      forall b k, (b + k <= a \/ a + n <= b)%nat -> slice k b M' j = slice k b M j.
Proof.
  intros SM SB H. pose proof (shaped_length _ _ _ SM) as LM. pose proof (shaped_length _ _ _ SB) as LB.
  exists (map2 (fun r b => firstn a r ++ b ++ skipn (a + n) r) M B). split; [|split].
  - unfold set_cols. rewrite LM, LB, Nat.eqb_refl, (forallb_width n B N SB). reflexivity.
  - split; [rewrite map2_length; lia|]. rewrite Forall_forall. intros r Hr.
    destruct (In_nth _ _ [] Hr) as (j & Hj & <-). rewrite map2_length in Hj.
    rewrite (nth_map2 _ _ _ j [] [] []) by lia.
    rewrite !app_length, firstn_length, skipn_length.
    pose proof (shaped_row _ _ _ j SM ltac:(lia)) as R1. pose proof (shaped_row _ _ _ j SB ltac:(lia)) as R2.
    unfold mrow in R1, R2. lia.
  - intros j Hj. unfold slice, mrow. rewrite (nth_map2 _ _ _ j [] [] []) by lia.
    pose proof (shaped_row _ _ _ j SM ltac:(lia)) as R1. pose proof (shaped_row _ _ _ j SB ltac:(lia)) as R2.
    unfold mrow in R1, R2. set (r := nth j M []) in *. set (b0 := nth j B []) in *. split.
    + rewrite skipn_app, (skipn_all2 (firstn a r)) by (rewrite firstn_length; lia).
      rewrite firstn_length. replace (a - Nat.min a (length r))%nat with 0%nat by lia. cbn [skipn app].
      rewrite firstn_app, firstn_all2 by lia. replace (n - length b0)%nat with 0%nat by lia. cbn [firstn]. apply app_nil_r.
    + intros b k Hbk. apply nth_ext with 0 0.
      * rewrite !firstn_length, !skipn_length, !app_length, firstn_length, skipn_length. lia.
      * intros i Hi. rewrite !firstn_length, !skipn_length, !app_length, firstn_length, skipn_length in Hi.
        rewrite !nth_firstn_lt by lia. rewrite !nth_skipn'.
        destruct Hbk as [Hb|Hb].
        -- rewrite app_nth1 by (rewrite firstn_length; lia). apply nth_firstn_lt. lia.
        -- rewrite app_nth2 by (rewrite firstn_length; lia). rewrite firstn_length.
           rewrite app_nth2 by lia. rewrite nth_skipn'. f_equal. lia.
Qed.
Lemma set_all_ok M B m N : (1 <= N)%nat -> shaped N m M -> shaped N m B -> set_all M B = Ok B.
Proof.
  intros HN SM SB. unfold set_all. rewrite (shaped_length _ _ _ SM), (shaped_length _ _ _ SB), Nat.eqb_refl.
  rewrite (shaped_mwidth _ _ _ SM) by lia. rewrite (forallb_width m B N SB). reflexivity.
Qed.

Lemma lastn_slice n m (M : mat) N j : (1 <= n <= m)%nat -> shaped N m M -> (j < N)%nat ->
  lastn n (mrow j M) = slice n (m - n) M j.
Proof.
  intros H SM Hj. unfold slice, lastn. rewrite (shaped_row _ _ _ j SM Hj).
  destruct (n =? 0)%nat eqn:E; [apply Nat.eqb_eq in E; lia|].
  symmetry. apply firstn_all2. rewrite skipn_length, (shaped_row _ _ _ j SM Hj). lia.
Qed.

Section Der.
  Variables (order n_q N : nat).
  Hypothesis HO : (1 <= order)%nat.
  Hypothesis HQ : (1 <= n_q)%nat.

  (** All but x and x_d. *)
  Definition same_rest (g g' : guess) : Prop :=
    g_u g' = g_u g /\ g_x_c g' = g_x_c g /\ g_x_d_c g' = g_x_d_c g /\ g_u_c g' = g_u_c g /\ g_q_constr g' = g_q_constr g.

  Lemma nq_le i : (i < order)%nat -> (n_q * i + n_q <= order * n_q)%nat.
  Proof. intros Hi. clear - Hi. nia. Qed.

  Lemma der_x i g j : (i < order)%nat -> der_guess order n_q i g j = slice n_q (n_q * i) (g_x g) j.
  Proof. intros H. unfold der_guess. rewrite (proj2 (Nat.ltb_lt _ _) H). reflexivity. Qed.
  Lemma der_x_d i g j : (order <= i)%nat -> shaped N (order * n_q) (g_x_d g) -> (j < N)%nat ->
    der_guess order n_q i g j = slice n_q (order * n_q - n_q) (g_x_d g) j.
  Proof.
    intros H S Hj. unfold der_guess. rewrite (proj2 (Nat.ltb_ge _ _) H). apply lastn_slice with N; auto.
    split; [exact HQ|]. pose proof (nq_le 0 HO). lia.
  Qed.

  Lemma set_der_ok i B g : (i <= order)%nat -> shaped N (order * n_q) (g_x g) -> shaped N (order * n_q) (g_x_d g) ->
    shaped N n_q B ->
    exists g', set_der order n_q i B g = Ok g' /\ shaped N (order * n_q) (g_x g') /\ shaped N (order * n_q) (g_x_d g') /\
      same_rest g g' /\
      (forall j, (j < N)%nat -> der_guess order n_q i g' j = mrow j B /\
        forall k, (k <= order)%nat -> k <> i -> der_guess order n_q k g' j = der_guess order n_q k g j) /\
      forall j, (j < N)%nat -> slice (order * n_q - n_q) 0 (g_x_d g') j = slice (order * n_q - n_q) 0 (g_x_d g) j.
  Proof.
    intros Hi S1 S2 SB. unfold set_der. destruct (i <? order)%nat eqn:E.
    - apply Nat.ltb_lt in E.
      destruct (set_cols_ok (n_q * i) n_q (g_x g) B (order * n_q) N S1 SB (nq_le i E)) as (M' & -> & S & V).
      cbn [rbind]. eexists. split; [reflexivity|]. split; [exact S|]. split; [exact S2|]. split; [repeat split|].
      split; [|reflexivity]. intros j Hj. destruct (V j Hj) as [V1 V2]. split.
      + rewrite der_x by exact E. exact V1.
      + intros k Hk Hn. destruct (Nat.lt_ge_cases k order) as [C|C].
        * rewrite !der_x by exact C. cbn [with_x g_x]. apply V2.
          destruct (Nat.lt_ge_cases k i) as [D|D].
          -- left. clear - D. nia.
          -- right. assert (i < k)%nat by lia. clear - H. nia.
        * rewrite !der_x_d by auto. reflexivity.
    - apply Nat.ltb_ge in E. assert (Ei : i = order) by lia. subst i.
      assert (A : (order * n_q - n_q + n_q <= order * n_q)%nat) by (pose proof (nq_le 0 HO); lia).
      destruct (set_cols_ok (order * n_q - n_q) n_q (g_x_d g) B (order * n_q) N S2 SB A) as (M' & -> & S & V).
      cbn [rbind]. eexists. split; [reflexivity|]. split; [exact S1|]. split; [exact S|]. split; [repeat split|].
      split; [|intros j Hj; apply (V j Hj); lia]. intros j Hj. destruct (V j Hj) as [V1 V2]. split.
      + rewrite der_x_d by auto. exact V1.
      + intros k Hk Hn. rewrite !der_x by lia. reflexivity.
  Qed.
End Der.

(** The interior points are set in the same way. *)
Definition swap (g : guess) : guess :=
  {| g_x := g_x_c g; g_x_d := g_x_d_c g; g_u := g_u g; g_x_c := g_x g; g_x_d_c := g_x_d g; g_u_c := g_u_c g; g_q_constr := g_q_constr g |}.
Lemma set_der_c_swap o n i B g : set_der_c o n i B g = (do h <- set_der o n i B (swap g); Ok (swap h)).
Proof.
  unfold set_der, set_der_c. destruct (i <? o)%nat; cbn [swap g_x g_x_d];
    match goal with |- context [set_cols ?a ?b ?c ?d] => destruct (set_cols a b c d) end; reflexivity.
Qed.
Lemma set_der_c_ok order n_q N i B g : (1 <= order)%nat -> (1 <= n_q)%nat ->
  (i <= order)%nat -> shaped N (order * n_q) (g_x_c g) -> shaped N (order * n_q) (g_x_d_c g) ->
  shaped N n_q B ->
  exists g', set_der_c order n_q i B g = Ok g' /\ shaped N (order * n_q) (g_x_c g') /\ shaped N (order * n_q) (g_x_d_c g') /\
    (g_x g' = g_x g /\ g_x_d g' = g_x_d g /\ g_u g' = g_u g /\ g_u_c g' = g_u_c g /\ g_q_constr g' = g_q_constr g) /\
    forall j, (j < N)%nat -> der_guess_c order n_q i g' j = mrow j B /\
      forall k, (k <= order)%nat -> k <> i -> der_guess_c order n_q k g' j = der_guess_c order n_q k g j.
Proof.
  intros HO HQ Hi S1 S2 SB. rewrite set_der_c_swap.
  destruct (set_der_ok order n_q N HO HQ i B (swap g) Hi S1 S2 SB) as (h & -> & T1 & T2 & (E1 & E2 & E3 & E4 & E5) & V & _).
  cbn [rbind]. exists (swap h). split; [reflexivity|]. split; [exact T1|]. split; [exact T2|].
  split; [|exact V]. cbn [swap g_x g_x_d g_u g_x_c g_x_d_c g_u_c g_q_constr] in *. auto.
Qed.

(** ** Interpolation *)
Lemma line_length t0 t1 a b t : length b = length a -> length (line t0 t1 a b t) = length a.
Proof. intros H. unfold line. rewrite map2_length. lia. Qed.
Lemma vnth_line t0 t1 a b t i : length b = length a -> (i < length a)%nat ->
  vnth (line t0 t1 a b t) i = vnth a i + (t - t0) / (t1 - t0) * (vnth b i - vnth a i).
Proof. intros H Hi. unfold line, vnth. rewrite (nth_map2 _ _ _ i 0 0 0) by lia. reflexivity. Qed.
Lemma line_start t0 t1 a b : length b = length a -> line t0 t1 a b t0 = a.
Proof.
  intros H. apply vec_ext; [now rewrite line_length|]. intros i Hi. rewrite line_length in Hi by auto.
  rewrite vnth_line by auto. unfold Rdiv. ring.
Qed.
Lemma line_end t0 t1 a b : t0 <> t1 -> length b = length a -> line t0 t1 a b t1 = b.
Proof.
  intros D H. apply vec_ext; [rewrite line_length; auto|]. intros i Hi. rewrite line_length in Hi by auto.
  rewrite vnth_line by auto. field. lra.
Qed.
Lemma line_vadd t0 t1 a b t : length b = length a ->
  vadd a (vscale ((t - t0) / (t1 - t0)) (vsub b a)) = line t0 t1 a b t.
Proof.
  intros H. assert (L : length (vscale ((t - t0) / (t1 - t0)) (vsub b a)) = length a).
  { unfold vscale, vsub. rewrite map_length, map2_length. lia. }
  apply vec_ext.
  - unfold vadd. rewrite map2_length, L, line_length by auto. lia.
  - intros i Hi. unfold vadd in Hi. rewrite map2_length, L in Hi.
    rewrite vnth_line by (auto; lia). rewrite vnth_vadd by lia. rewrite vnth_vscale by (unfold vsub; rewrite map2_length; lia).
    rewrite vnth_vsub by lia. reflexivity.
Qed.

Lemma np_line m ts : forall Y t0 y0 i t, length y0 = m -> shaped (length ts) m Y -> increasing_from t0 ts -> (i < length ts)%nat ->
  vnth (t0 :: ts) i <= t <= vnth (t0 :: ts) (i + 1) ->
  np_interp t0 y0 (combine ts Y) t =
    line (vnth (t0 :: ts) i) (vnth (t0 :: ts) (i + 1)) (mrow i (y0 :: Y)) (mrow (i + 1) (y0 :: Y)) t.
Proof.
  induction ts as [|t1 ts IH]; intros Y t0 y0 i t L0 S I Hi Ht; [simpl in Hi; lia|].
  destruct Y as [|y1 Y]; [destruct S; discriminate|]. destruct S as [LY FY]. simpl in LY. injection LY as LY.
  assert (L1 : length y1 = m) by (inversion FY; auto). assert (FY' : Forall (fun r => length r = m) Y) by (inversion FY; auto).
  destruct I as [I1 I2]. cbn [combine np_interp]. destruct i as [|i].
  - unfold vnth in Ht. simpl in Ht. unfold vnth, mrow. cbn [nth Nat.add].
    destruct (Rle_dec t t0) as [C|C].
    + replace t with t0 by lra. rewrite line_start; [reflexivity|lia].
    + destruct (Rle_dec t t1) as [D|D]; [|lra]. apply line_vadd. lia.
  - assert (Hi' : (i < length ts)%nat) by (simpl in Hi; lia).
    assert (K : t1 <= vnth (t1 :: ts) i).
    { destruct i as [|i]; [unfold vnth; simpl; lra|]. left. apply (increasing_from_le t1 ts); auto.
      unfold vnth. simpl. apply nth_In. lia. }
    change (vnth (t0 :: t1 :: ts) (S i)) with (vnth (t1 :: ts) i) in *.
    change (vnth (t0 :: t1 :: ts) (S i + 1)) with (vnth (t1 :: ts) (i + 1)) in *.
    change (mrow (S i) (y0 :: y1 :: Y)) with (mrow i (y1 :: Y)). change (mrow (S i + 1) (y0 :: y1 :: Y)) with (mrow (i + 1) (y1 :: Y)).
    destruct (Rle_dec t t0) as [C|C]; [lra|]. destruct (Rle_dec t t1) as [D|D].
    + assert (Et : t = t1) by lra. destruct i as [|i].
      * subst t. unfold vnth, mrow. cbn [nth Nat.add]. rewrite line_start.
        -- rewrite line_vadd by lia. apply line_end; [lra|lia].
        -- destruct Y as [|y2 Y]; [simpl in LY; simpl in Hi'; lia|]. simpl. inversion FY'. lia.
      * exfalso. assert (t1 < vnth (t1 :: ts) (S i)); [|lra]. apply (increasing_from_le t1 ts); auto.
        unfold vnth. simpl. apply nth_In. lia.
    + apply IH; auto. split; auto.
Qed.

Lemma interp_line (ts : vec) Y m i t : increasing ts -> shaped (length ts) m Y -> (i + 1 < length ts)%nat ->
  vnth ts i <= t <= vnth ts (i + 1) ->
  interp_2d ts Y t = Ok (line (vnth ts i) (vnth ts (i + 1)) (mrow i Y) (mrow (i + 1) Y) t).
Proof.
  intros I S Hi Ht. unfold interp_2d. rewrite (shaped_length _ _ _ S), Nat.eqb_refl. cbn [negb]. unfold np_interp_rows.
  destruct ts as [|t0 ts]; [simpl in Hi; lia|]. destruct Y as [|y0 Y]; [destruct S; discriminate|].
  cbn [combine]. f_equal. destruct S as [LS FS]. simpl in LS. injection LS as LS.
  apply np_line with m; auto.
  - now inversion FS.
  - split; auto. now inversion FS.
  - now apply increasing_cons_from.
  - simpl in Hi. lia.
Qed.
Lemma interp_polyline (ts : vec) Y m t v : increasing ts -> shaped (length ts) m Y -> polyline ts Y t v -> interp_2d ts Y t = Ok v.
Proof. intros I S (i & Hi & Ht & ->). now apply interp_line with m. Qed.

Lemma polyline_cover (ts : vec) t : (2 <= length ts)%nat -> vnth ts 0 <= t <= vnth ts (length ts - 1) ->
  exists i, (i + 1 < length ts)%nat /\ vnth ts i <= t <= vnth ts (i + 1).
Proof.
  intros L H. assert (G : forall k, (k + 1 < length ts)%nat -> t <= vnth ts (k + 1) ->
    exists i, (i + 1 < length ts)%nat /\ vnth ts i <= t <= vnth ts (i + 1)).
  { induction k as [|k IH]; intros Hk Ht.
    - exists 0%nat. split; [exact Hk|]. split; [apply H|exact Ht].
    - destruct (Rle_dec t (vnth ts (k + 1))) as [C|C]; [apply IH; [lia|exact C]|].
      exists (S k). split; [lia|]. split; [|exact Ht]. replace (S k) with (k + 1)%nat by lia. lra. }
  apply (G (length ts - 2)%nat); [lia|]. replace (length ts - 2 + 1)%nat with (length ts - 1)%nat by lia. apply H.
Qed.
Lemma interp_all_polyline (ts : vec) Y m t : increasing ts -> (2 <= length ts)%nat -> shaped (length ts) m Y ->
  Forall (fun s => vnth ts 0 <= s <= vnth ts (length ts - 1)) t ->
  exists Z, interp_all ts Y t = Ok Z /\ shaped (length t) m Z /\
    forall j, (j < length t)%nat -> polyline ts Y (vnth t j) (mrow j Z).
Proof.
  intros I L S F. unfold interp_all. induction t as [|a t IH].
  - exists []. split; [reflexivity|]. split; [split; [reflexivity|constructor]|]. simpl. lia.
  - inversion F as [|? ? Fa F']; subst. destruct (IH F') as (Z & EZ & SZ & VZ). clear IH.
    destruct (polyline_cover ts a L Fa) as (i & Hi & Hin).
    cbn [mapm]. rewrite (interp_line ts Y m i a I S Hi Hin). cbn [rbind]. rewrite EZ. cbn [rbind].
    eexists. split; [reflexivity|]. destruct SZ as [LZ FZ]. split; [split|].
    + simpl. lia.
    + constructor; auto. rewrite line_length; rewrite !(shaped_row _ _ _ _ S); auto; lia.
    + intros [|j] Hj; [unfold vnth, mrow; simpl nth; exists i; auto|]. apply VZ. simpl in Hj. lia.
Qed.

(** Between two points: the straight line. *)
Lemma interp_ends t0 t1 a b m t : t0 < t1 -> length a = m -> length b = m -> Forall (fun s => t0 <= s <= t1) t ->
  exists Z, interp_all [t0; t1] [a; b] t = Ok Z /\ shaped (length t) m Z /\
    forall j, (j < length t)%nat -> mrow j Z = line t0 t1 a b (vnth t j).
Proof.
  intros H La Lb F.
  assert (I : increasing [t0; t1]).
  { intros i j Hij. simpl in Hij. destruct i as [|i]; destruct j as [|[|j]]; try lia. unfold vnth. simpl. lra. }
  destruct (interp_all_polyline [t0; t1] [a; b] m t I) as (Z & EZ & SZ & VZ); auto.
  - split; [reflexivity|]. repeat constructor; auto.
  - exists Z. split; [exact EZ|]. split; [exact SZ|]. intros j Hj. destruct (VZ j Hj) as (i & Hi & _ & ->).
    simpl in Hi. assert (i = 0)%nat by lia. subst i. reflexivity.
Qed.

Lemma shaped_repeat n m (v : vec) : length v = m -> shaped n m (repeat v n).
Proof. intros H. split; [apply repeat_length|]. apply Forall_forall. intros r Hr. apply repeat_spec in Hr. now subst. Qed.
Lemma mrow_repeat n (v : vec) j : (j < n)%nat -> mrow j (repeat v n) = v.
Proof. intros H. unfold mrow. apply (repeat_spec n v). apply nth_In. now rewrite repeat_length. Qed.
Lemma shaped_mid n m M : shaped n m M -> shaped (n - 1) m (mid_rows M).
Proof.
  intros S. pose proof (shaped_length _ _ _ S) as L. destruct S as [_ F].
  assert (LB : length (butlastn 1 M) = (n - 1)%nat).
  { unfold butlastn. cbn [Nat.eqb]. rewrite firstn_length. lia. }
  split; [unfold mid_rows; rewrite map2_length, LB, skipn_length; lia|].
  rewrite Forall_forall. intros r Hr. destruct (In_nth _ _ [] Hr) as (j & Hj & <-).
  unfold mid_rows in *. rewrite map2_length, LB, skipn_length in Hj. rewrite (nth_map2 _ _ _ j [] [] []); [|lia|rewrite skipn_length; lia].
  rewrite Forall_forall in F.
  assert (A : length (nth j (butlastn 1 M) []) = m).
  { unfold butlastn. cbn [Nat.eqb]. rewrite nth_firstn_lt by lia. apply F. apply nth_In. lia. }
  assert (B : length (nth j (skipn 1 M) []) = m).
  { rewrite nth_skipn'. apply F. apply nth_In. lia. }
  unfold vdivs, vadd. rewrite map_length, map2_length. lia.
Qed.
Lemma mrow_mid n m M j : shaped n m M -> (j + 1 < n)%nat -> mrow j (mid_rows M) = vdivs (vadd (mrow j M) (mrow (j + 1) M)) 2.
Proof.
  intros S Hj. pose proof (shaped_length _ _ _ S) as L. unfold mid_rows, mrow.
  rewrite (nth_map2 _ _ _ j [] [] []).
  - unfold butlastn. cbn [Nat.eqb]. rewrite nth_firstn_lt by lia. rewrite nth_skipn'. do 3 f_equal. lia.
  - unfold butlastn. cbn [Nat.eqb]. rewrite firstn_length. lia.
  - rewrite skipn_length. lia.
Qed.
