(** The custom guess of problems of several segments. *)
From Coq Require Import String.
From Verif Require Import Prelude PreludeFacts Poly PolyInterp Mat MatFacts PwModel PwInterpModel PhModel PhSpec
  CostModel DispatchModel EquiModel InitModel InitSpec InitProofs InitPhModel.
Open Scope list_scope.
Open Scope R_scope.

Lemma nth_firstn {A} (d : A) n l i : (i < n)%nat -> nth i (firstn n l) d = nth i l d.
Proof. revert l i. induction n as [|n IH]; intros [|a l] [|i] H; try lia; cbn [firstn nth]; auto. apply IH. lia. Qed.
Lemma nth_skip {A} (d : A) n l i : nth i (skipn n l) d = nth (n + i) l d.
Proof. revert l. induction n as [|n IH]; intros l; [reflexivity|]. destruct l; [now destruct i|]. apply IH. Qed.

Lemma put_segments_length ns : forall M U, length M = (list_sum ns + length ns)%nat -> length U = list_sum ns ->
  length (put_segments ns M U) = length M.
Proof.
  induction ns as [|n ns IH]; intros M U LM LU; [reflexivity|]. unfold list_sum in *. cbn [fold_right length] in *. cbn [put_segments].
  rewrite !app_length, IH; rewrite ?skipn_length; try lia. rewrite !firstn_length, skipn_length. lia.
Qed.
Lemma put_segments_point ns : forall M U s i, length M = (list_sum ns + length ns)%nat -> length U = list_sum ns ->
  (s < length ns)%nat -> (i < nth s ns 0)%nat ->
  nth (list_sum (firstn s ns) + s + i) (put_segments ns M U) [] = nth (list_sum (firstn s ns) + i) U [].
Proof.
  induction ns as [|n ns IH]; intros M U s i LM LU Hs Hi; [cbn in Hs; lia|].
  unfold list_sum in *. cbn [fold_right length] in *. cbn [put_segments].
  assert (L1 : length (firstn n U) = n) by (rewrite firstn_length; lia).
  assert (L2 : length (firstn 1 (skipn n M)) = 1%nat) by (rewrite firstn_length, skipn_length; lia).
  destruct s as [|s]; cbn [firstn fold_right nth] in *.
  - rewrite app_nth1 by lia. rewrite nth_firstn by lia. reflexivity.
  - rewrite app_nth2 by lia. rewrite app_nth2 by lia. rewrite L1, L2.
    replace (n + fold_right Nat.add 0%nat (firstn s ns) + S s + i - n - 1)%nat with (fold_right Nat.add 0%nat (firstn s ns) + s + i)%nat by lia.
    rewrite IH; rewrite ?skipn_length; try lia. rewrite nth_skip. f_equal. lia.
Qed.
Lemma put_segments_knot ns : forall M U k, length M = (list_sum ns + length ns)%nat -> length U = list_sum ns ->
  (k < length ns)%nat ->
  nth (list_sum (firstn (S k) ns) + k) (put_segments ns M U) [] = nth (list_sum (firstn (S k) ns) + k) M [].
Proof.
  induction ns as [|n ns IH]; intros M U k LM LU Hk; [cbn in Hk; lia|].
  unfold list_sum in *. cbn [fold_right length] in *. cbn [put_segments].
  assert (L1 : length (firstn n U) = n) by (rewrite firstn_length; lia).
  assert (L2 : length (firstn 1 (skipn n M)) = 1%nat) by (rewrite firstn_length, skipn_length; lia).
  change (firstn (S k) (n :: ns)) with (n :: firstn k ns). cbn [fold_right].
  destruct k as [|k].
  - change (firstn 0 ns) with (@nil nat). cbn [fold_right]. rewrite app_nth2 by lia. rewrite L1. rewrite app_nth1 by lia. rewrite nth_firstn by lia. rewrite nth_skip. f_equal. lia.
  - rewrite app_nth2 by lia. rewrite app_nth2 by lia. rewrite L1, L2.
    replace (n + fold_right Nat.add 0%nat (firstn (S k) ns) + S k - n - 1)%nat with (fold_right Nat.add 0%nat (firstn (S k) ns) + k)%nat by lia.
    rewrite IH; rewrite ?skipn_length; try lia. rewrite nth_skip. f_equal. lia.
Qed.

Lemma set_u_points_ok ns M U nu : shaped (ph_n_arr ns) nu M -> shaped (list_sum ns) nu U -> (1 <= length ns)%nat ->
  exists M', set_u_points ns M U = Ok M' /\ length M' = ph_n_arr ns /\
  (forall s i, (s < length ns)%nat -> (i < nth s ns 0)%nat -> mrow (point_row ns s i) M' = mrow (point_number ns s i) U) /\
  forall k, (k <= length ns)%nat -> mrow (knot_row ns k) M' = mrow (knot_row ns k) M.
Proof.
  intros [LM FM] [LU FU] H1. unfold set_u_points, ph_n_arr in *.
  destruct M as [|m0 M]; [cbn in LM; lia|]. cbn [length] in LM. 
  assert (W : mwidth (m0 :: M) = nu) by (inversion FM; subst; reflexivity).
  rewrite W, LU, Nat.eqb_refl. cbn [andb].
  replace (forallb (fun r => (length r =? nu)%nat) U) with true.
  2:{ symmetry. apply forallb_forall. intros r Hr. apply Nat.eqb_eq. rewrite Forall_forall in FU. auto. }
  assert (LM' : length M = (list_sum ns + length ns)%nat) by lia.
  eexists. split; [reflexivity|]. cbn [firstn skipn app].
  split; [cbn [length]; rewrite put_segments_length; auto; lia|]. split.
  - intros s i Hs Hi. unfold mrow, point_row, knot_row, point_number.
    replace (list_sum (firstn s ns) + s + 1 + i)%nat with (S (list_sum (firstn s ns) + s + i)) by lia. cbn [nth].
    now apply put_segments_point.
  - intros [|k] Hk; [reflexivity|]. unfold mrow, knot_row.
    replace (list_sum (firstn (S k) ns) + S k)%nat with (S (list_sum (firstn (S k) ns) + k)) by lia. cbn [nth].
    apply put_segments_knot; auto.
Qed.

Theorem custom_ph_ok ns p q v u g nu : let N := ph_n_arr ns in
  (1 <= ip_order p)%nat -> (1 <= ip_n_q p)%nat -> (1 <= length ns)%nat ->
  shaped N (ip_order p * ip_n_q p) (g_x g) -> shaped N (ip_order p * ip_n_q p) (g_x_d g) -> shaped N nu (g_u g) ->
  shaped N (ip_n_q p) q -> shaped N (ip_n_q p) v -> shaped (list_sum ns) nu u ->
  exists g', custom_guess_ph ns p q v u g = Ok g' /\
  (forall j, (j < N)%nat -> der_guess (ip_order p) (ip_n_q p) 0 g' j = mrow j q /\ der_guess (ip_order p) (ip_n_q p) 1 g' j = mrow j v /\
    forall k, (2 <= k <= ip_order p)%nat -> der_guess (ip_order p) (ip_n_q p) k g' j = der_guess (ip_order p) (ip_n_q p) k g j) /\
  (forall s i, (s < length ns)%nat -> (i < nth s ns 0)%nat -> mrow (point_row ns s i) (g_u g') = mrow (point_number ns s i) u) /\
  (forall k, (k <= length ns)%nat -> mrow (knot_row ns k) (g_u g') = mrow (knot_row ns k) (g_u g)) /\
  g_q_constr g' = g_q_constr g.
Proof.
  intros N HO HQ HL S1 S2 S3 Sq Sv Su. unfold custom_guess_ph. cbn zeta.
  destruct (set_der_ok (ip_order p) (ip_n_q p) N HO HQ 0 q g ltac:(lia) S1 S2 Sq) as (g1 & -> & A1 & A2 & (R1 & _ & _ & _ & R5) & V1 & _).
  cbn [rbind]. rewrite R1. destruct (set_u_points_ok ns _ _ nu S3 Su HL) as (M' & -> & LM & P1 & P2). cbn [rbind].
  destruct (set_der_ok (ip_order p) (ip_n_q p) N HO HQ 1 v (with_u M' g1) HO A1 A2 Sv) as (g2 & -> & B1 & B2 & (R2 & _ & _ & _ & R6) & V2 & _).
  exists g2. split; [reflexivity|]. split; [|split; [|split]].
  - intros j Hj. destruct (V1 j Hj) as [K1 K2], (V2 j Hj) as [K3 K4].
    assert (DU : forall k, der_guess (ip_order p) (ip_n_q p) k (with_u M' g1) j = der_guess (ip_order p) (ip_n_q p) k g1 j) by reflexivity.
    split; [rewrite K4, DU, K1 by lia; reflexivity|]. split; [exact K3|]. intros k Hk. rewrite K4, DU, K2 by lia. reflexivity.
  - rewrite R2. exact P1.
  - rewrite R2. exact P2.
  - rewrite R6. exact R5.
Qed.

(** An array of controls with a row for every point of x, knots and ends
    included, is refused. *)
Theorem custom_ph_like_x ns p q v u g nu : let N := ph_n_arr ns in
  (1 <= ip_order p)%nat -> (1 <= ip_n_q p)%nat -> 
  shaped N (ip_order p * ip_n_q p) (g_x g) -> shaped N (ip_order p * ip_n_q p) (g_x_d g) ->
  shaped N (ip_n_q p) q -> shaped N nu u -> custom_guess_ph ns p q v u g = Err RuntimeError.
Proof.
  intros N HO HQ S1 S2 Sq [Lu _]. unfold custom_guess_ph. cbn zeta.
  destruct (set_der_ok (ip_order p) (ip_n_q p) N HO HQ 0 q g ltac:(lia) S1 S2 Sq) as (g1 & -> & _).
  cbn [rbind]. unfold set_u_points. rewrite Lu. unfold N, ph_n_arr.
  rewrite (proj2 (Nat.eqb_neq _ _)) by lia. reflexivity.
Qed.

(** Two segments of two and one points: the initial values of the controls of
    the ends and of the knot stay zero. *)
Lemma custom_ph_example : let z6 := repeat [0] 6 in let z66 := repeat [0; 0] 6 in
  let g := {| g_x := z66; g_x_d := z66; g_u := z6; g_x_c := []; g_x_d_c := []; g_u_c := []; g_q_constr := repeat [0] 3 |} in
  let p := {| ip_class := multi_pseudospectral; ip_scheme := "LG"%string; ip_order := 2; ip_n_q := 1; ip_t_start := 0; ip_t_end := 2;
              ip_t := []; ip_t_col := []; ip_n_constr := 3 |} in
  exists g', custom_guess_ph [2; 1]%nat p [[1]; [2]; [3]; [4]; [5]; [6]] [[1]; [2]; [3]; [4]; [5]; [6]] [[7]; [8]; [9]] g = Ok g' /\
  g_u g' = [[0]; [7]; [8]; [0]; [9]; [0]] /\ map (der_guess 2 1 0 g') (seq 0 6) = [[1]; [2]; [3]; [4]; [5]; [6]] /\
  g_q_constr g' = [[0]; [0]; [0]].
Proof. eexists. split; [reflexivity|]. repeat split. Qed.
