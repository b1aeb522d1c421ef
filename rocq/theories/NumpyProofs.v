(** Array helpers. *)
From Coq Require Import Reals List Bool Arith Lia Lra String ZArith.
From Verif Require Import Prelude PreludeFacts Mat MatFacts PwInterpModel PwInterpProofs PsBaryProofs NumpyModel NumpySpec.
Import ListNotations.
Open Scope list_scope.
Open Scope R_scope.

(** ** C45 *)
Lemma unpack_count a l : unpack a = Ok l ->
  length l = match a with A0 _ => 1%nat | A1 v => length v | A2 c _ => c | AN _ => 0%nat end.
Proof.
  destruct a; cbn; intros H; inversion H; subst; auto; now rewrite map_length, ?seq_length.
Qed.
Lemma map_value0 v : map value0 (map E0 v) = v.
Proof. induction v; cbn; congruence. Qed.
Lemma forallb_zero_d v : forallb zero_d (map E0 v) = true.
Proof. induction v; cbn; auto. Qed.
Lemma round1 v : v <> [] -> (do l <- unpack (A1 v); congruent_concatenate l) = Ok (A1 v).
Proof.
  intros H. cbn [unpack rbind]. destruct v as [|x v]; [congruence|]. unfold congruent_concatenate. cbn [map].
  cbn [size Nat.eqb]. change (E0 x :: map E0 v) with (map E0 (x :: v)). now rewrite forallb_zero_d, map_value0.
Qed.
Lemma forallb_map' {A B} (f : B -> bool) (g : A -> B) l : forallb f (map g l) = forallb (fun x => f (g x)) l.
Proof. induction l; cbn; congruence. Qed.
Lemma forallb_const {A} (f : A -> bool) l : (forall a, In a l -> f a = true) -> forallb f l = true.
Proof. intros H. now apply forallb_forall. Qed.
Lemma columns_mcol n c m : shaped n c m -> (1 <= c)%nat -> columns (map (fun j => mcol j m) (seq 0 c)) = m.
Proof.
  intros SH C. unfold columns. assert (L : length (hd [] (map (fun j => mcol j m) (seq 0 c))) = n).
  { destruct c as [|c]; [lia|]. cbn [seq map hd]. rewrite mcol_length. now apply shaped_length in SH. }
  rewrite L. pose proof (shaped_length _ _ _ SH) as SL. apply (mat_ext n c); [|exact SH|].
  - split; [now rewrite map_length, seq_length|]. apply Forall_forall. intros r Hr. apply in_map_iff in Hr.
    destruct Hr as (i & <- & _). now rewrite !map_length, seq_length.
  - intros i j Hi Hj. unfold mget at 1, mrow. rewrite (nth_map' _ _ _ 0%nat) by now rewrite seq_length. rewrite seq_nth by exact Hi.
    rewrite map_map. unfold vnth at 1. rewrite (nth_map' _ _ _ 0%nat) by now rewrite seq_length. rewrite seq_nth by exact Hj.
    cbn [Nat.add]. apply vnth_mcol. now rewrite SL.
Qed.
Lemma round2 n c m : shaped n c m -> (1 <= c)%nat -> n <> 1%nat -> (do l <- unpack (A2 c m); congruent_concatenate l) = Ok (A2 c m).
Proof.
  intros SH C N. cbn [unpack rbind]. pose proof (shaped_length _ _ _ SH) as SL.
  assert (SZ : forall j, size (E1 (mcol j m)) = n) by (intros j; cbn [size]; now rewrite mcol_length).
  unfold congruent_concatenate. destruct c as [|c]; [lia|].
  assert (E : map (fun j => E1 (mcol j m)) (seq 0 (S c)) = E1 (mcol 0 m) :: map (fun j => E1 (mcol j m)) (seq 1 c)) by reflexivity.
  rewrite E at 1. rewrite SZ. apply Nat.eqb_neq in N. rewrite N.
  rewrite forallb_map', forallb_const by reflexivity. rewrite forallb_map', forallb_const by (intros j _; rewrite SZ; apply Nat.eqb_refl).
  rewrite map_length, seq_length, map_map. cbn [value1]. rewrite (columns_mcol n (S c) m SH) by lia. reflexivity.
Qed.
Lemma round_one_row c m : shaped 1 c m -> (1 <= c)%nat -> (do l <- unpack (A2 c m); congruent_concatenate l) = Err AssertionError.
Proof.
  intros SH C. cbn [unpack rbind]. pose proof (shaped_length _ _ _ SH) as SL. destruct c as [|c]; [lia|].
  unfold congruent_concatenate. cbn [seq map size]. rewrite mcol_length, SL. reflexivity.
Qed.
Lemma round_empty : (do l <- unpack (A1 []); congruent_concatenate l) = Err IndexError.
Proof. reflexivity. Qed.
Lemma round_no_columns m : (do l <- unpack (A2 0 m); congruent_concatenate l) = Err IndexError.
Proof. reflexivity. Qed.
Lemma round_number r : (do l <- unpack (A0 r); congruent_concatenate l) = Ok (A1 [r]).
Proof. reflexivity. Qed.
(** the other way round *)
Lemma back_numbers l : l <> [] -> (do a <- congruent_concatenate (map E0 l); unpack a) = Ok (map E0 l).
Proof.
  destruct l as [|x l]; [congruence|]. intros _. unfold congruent_concatenate. cbn [map size Nat.eqb].
  change (E0 x :: map E0 l) with (map E0 (x :: l)). now rewrite forallb_zero_d, map_value0.
Qed.
Lemma columns_shaped n l : Forall (fun v => length v = n) l -> (1 <= length l)%nat -> shaped n (length l) (columns l).
Proof.
  intros F L. destruct l as [|v l]; [cbn in L; lia|]. unfold columns. cbn [hd]. inversion F; subst.
  split; [now rewrite map_length, seq_length|]. apply Forall_forall. intros r Hr. apply in_map_iff in Hr.
  destruct Hr as (i & <- & _). now rewrite map_length.
Qed.
Lemma mget_columns n l i j : Forall (fun v => length v = n) l -> (j < length l)%nat -> (i < n)%nat -> mget (columns l) i j = vnth (nth j l []) i.
Proof.
  intros F J I. unfold columns. destruct l as [|v l]; [cbn in J; lia|]. cbn [hd]. inversion F; subst.
  unfold mget, mrow. rewrite (nth_map' _ _ _ 0%nat) by now rewrite seq_length. rewrite seq_nth by exact I. cbn [Nat.add].
  unfold vnth at 1. rewrite (nth_map' _ _ _ []) by exact J. reflexivity.
Qed.
Lemma cc_columns n l : Forall (fun v => length v = n) l -> (1 <= length l)%nat -> n <> 1%nat ->
  congruent_concatenate (map E1 l) = Ok (A2 (length l) (columns l)).
Proof.
  intros F L N. unfold congruent_concatenate. destruct l as [|v l]; [cbn in L; lia|].
  assert (V : length v = n) by now inversion F.
  assert (E : map E1 (v :: l) = E1 v :: map E1 l) by reflexivity. rewrite E at 1. cbn [size]. rewrite V.
  apply Nat.eqb_neq in N. rewrite N. rewrite forallb_map', forallb_const by reflexivity.
  rewrite forallb_map', forallb_const.
  - rewrite map_length. f_equal. f_equal. f_equal. rewrite map_map. cbn [value1]. apply map_id.
  - intros w Hw. cbn [size]. rewrite Forall_forall in F. rewrite (F w Hw). apply Nat.eqb_refl.
Qed.
Lemma back_columns n l : Forall (fun v => length v = n) l -> (1 <= length l)%nat -> n <> 1%nat ->
  (do a <- congruent_concatenate (map E1 l); unpack a) = Ok (map E1 l).
Proof.
  intros F L N. rewrite (cc_columns n l F L N). cbn [rbind unpack]. f_equal.
  pose proof (columns_shaped n l F L) as SH. pose proof (shaped_length _ _ _ SH) as SL.
  apply (list_ext (E0 0)); rewrite ?map_length, ?seq_length; [reflexivity|]. intros j Hj.
  rewrite (nth_map' _ _ _ 0%nat) by now rewrite seq_length. rewrite seq_nth by exact Hj. rewrite (nth_map' _ _ _ []) by exact Hj.
  cbn [Nat.add]. f_equal. assert (LJ : length (nth j l []) = n). { rewrite Forall_forall in F. apply F. now apply nth_In. }
  apply vec_ext; [rewrite mcol_length; congruence|]. intros i Hi. rewrite mcol_length in Hi. rewrite vnth_mcol by exact Hi.
  apply (mget_columns n); auto. lia.
Qed.

(** ** C46 *)
Lemma map2_tl_nth (f : R -> R -> R) (v : vec) i : (S i < length v)%nat -> vnth (map2 f (tl v) v) i = f (vnth v (S i)) (vnth v i).
Proof.
  intros H. destruct v as [|x v]; [cbn in H; lia|]. cbn [tl]. unfold vnth. cbn [length] in H.
  rewrite (PreludeFacts.nth_map2 f v (x :: v) i 0 0 0) by (cbn [length]; lia). reflexivity.
Qed.
Lemma map2_tl_length (f : R -> R -> R) (v : vec) : length (map2 f (tl v) v) = (length v - 1)%nat.
Proof. rewrite map2_length. destruct v; cbn [tl length]; lia. Qed.
Lemma trapz1_sum y t : length y = length t ->
  trapz1 y t = Ok (rsum (length y - 1) (fun i => (vnth t (S i) - vnth t i) * (vnth y (S i) + vnth y i) / 2)).
Proof.
  intros E. unfold trapz1, bc, diffs, pair_sums. rewrite !map2_tl_length, E, Nat.eqb_refl. cbn [rbind]. f_equal.
  rewrite vsum_rsum, map2_length, !map2_tl_length, E, Nat.min_id. apply rsum_ext. intros i Hi.
  unfold vnth at 1. rewrite (PreludeFacts.nth_map2 _ _ _ i 0 0 0) by (rewrite map2_tl_length; lia).
  fold (vnth (map2 Rminus (tl t) t) i) (vnth (map2 Rplus (tl y) y) i). rewrite !map2_tl_nth by lia. reflexivity.
Qed.
Lemma trapz_ok dt X t : length X = length t -> exists Y, trapz_integrate1 dt X t = Ok Y /\ length Y = length X /\
  forall i, (i < length X)%nat ->
    vnth Y i = match i with O => 0 | S _ => store dt (rsum i (fun k => (vnth t (S k) - vnth t k) * (vnth X (S k) + vnth X k) / 2)) end.
Proof.
  intros E. destruct X as [|x X'] eqn:EX; [exists []; split; [reflexivity|]; split; [reflexivity|cbn; lia]|].
  rewrite <- EX in *. assert (NE : (1 <= length X)%nat) by (rewrite EX; cbn; lia).
  set (g := fun i => store dt (rsum i (fun k => (vnth t (S k) - vnth t k) * (vnth X (S k) + vnth X k) / 2))).
  exists (0 :: map g (seq 1 (length X - 1))). split; [|split].
  - unfold trapz_integrate1. rewrite EX. rewrite <- EX. rewrite (mapm_ext _ (fun i => Ok (g i))).
    + rewrite mapm_Ok. reflexivity.
    + intros i Hi. apply in_seq in Hi.
      assert (LY : length (firstn (i + 1) X) = (i + 1)%nat) by (rewrite firstn_length; lia).
      assert (LT : length (firstn (i + 1) t) = (i + 1)%nat) by (rewrite firstn_length; lia).
      rewrite trapz1_sum by congruence. cbn [rbind]. f_equal. unfold g. f_equal. rewrite LY.
      replace (i + 1 - 1)%nat with i by lia. apply rsum_ext. intros k Hk.
      rewrite !vnth_firstn. assert (A : (S k <? i + 1)%nat = true) by (apply Nat.ltb_lt; lia).
      assert (B : (k <? i + 1)%nat = true) by (apply Nat.ltb_lt; lia). now rewrite A, B.
  - cbn [length]. rewrite map_length, seq_length. lia.
  - intros [|i] Hi; [reflexivity|]. unfold vnth at 1. cbn [nth]. fold (vnth (map g (seq 1 (length X - 1))) i).
    rewrite vnth_map_seq by lia. reflexivity.
Qed.
Lemma trapz_steps X t : length X = length t -> exists Y, trapz_integrate1 D_float X t = Ok Y /\ length Y = length X /\
  ((1 <= length X)%nat -> vnth Y 0 = 0) /\
  (forall i, (S i < length X)%nat -> vnth Y (S i) - vnth Y i = (vnth t (S i) - vnth t i) * (vnth X (S i) + vnth X i) / 2).
Proof.
  intros E. destruct (trapz_ok D_float X t E) as (Y & H1 & H2 & H3). exists Y. split; [exact H1|]. split; [exact H2|]. split.
  - intros L. now rewrite H3 by lia.
  - intros i Hi. rewrite !H3 by lia. cbn [store rsum]. destruct i; cbn [rsum]; lra.
Qed.
Lemma trapz_affine a b (t : vec) : exists Y, trapz_integrate1 D_float (map (fun s => a + b * s) t) t = Ok Y /\
  forall i, (i < length t)%nat -> vnth Y i = a * (vnth t i - vnth t 0) + b * (vnth t i ^ 2 - vnth t 0 ^ 2) / 2.
Proof.
  destruct (trapz_steps (map (fun s => a + b * s) t) t (map_length _ _)) as (Y & H1 & H2 & H3 & H4). rewrite map_length in *.
  exists Y. split; [exact H1|]. induction i as [|i IH]; intros Hi.
  - rewrite H3 by lia. lra.
  - specialize (H4 i Hi). rewrite IH in H4 by lia.
    assert (M : forall k, (k < length t)%nat -> vnth (map (fun s => a + b * s) t) k = a + b * vnth t k).
    { intros k Hk. unfold vnth. now rewrite (nth_map' _ _ _ 0). }
    rewrite !M in H4 by lia.
    replace (vnth Y (S i)) with ((vnth Y (S i) - (a * (vnth t i - vnth t 0) + b * (vnth t i ^ 2 - vnth t 0 ^ 2) / 2))
      + (a * (vnth t i - vnth t 0) + b * (vnth t i ^ 2 - vnth t 0 ^ 2) / 2)) by ring.
    rewrite H4. field.
Qed.

Lemma num_derivative1_ok dt X h : (2 <= length X)%nat -> exists Y, num_derivative1 dt X h = Ok Y /\ length Y = length X /\
  vnth Y 0 = store dt ((vnth X 1 - vnth X 0) / h) /\
  (forall i, (1 <= i)%nat -> (i + 1 < length X)%nat -> vnth Y i = store dt ((vnth X (i + 1) - vnth X (i - 1)) / (2 * h))) /\
  vnth Y (length X - 1) = store dt ((vnth X (length X - 2) - vnth X (length X - 1)) / h).
Proof.
  intros L. unfold num_derivative1, num_derivative. apply Nat.ltb_ge in L as L'. rewrite L'.
  eexists. split; [reflexivity|].
  set (inner := map (store dt) (map2 (fun a b => (a - b) / (2 * h)) (skipn 2 X) (firstn (length X - 2) X))).
  assert (LI : length inner = (length X - 2)%nat). { unfold inner. rewrite map_length, map2_length, skipn_length, firstn_length. lia. }
  split; [|split; [|split]].
  - cbn [length]. rewrite app_length, LI. cbn [length]. lia.
  - reflexivity.
  - intros i I1 I2. destruct i as [|i]; [lia|]. unfold vnth at 1. cbn [nth]. rewrite app_nth1 by lia.
    unfold inner. rewrite (nth_map' _ _ _ 0) by (rewrite map2_length, skipn_length, firstn_length; lia).
    rewrite (PreludeFacts.nth_map2 _ _ _ i 0 0 0) by (rewrite ?skipn_length, ?firstn_length; lia).
    fold (vnth (skipn 2 X) i) (vnth (firstn (length X - 2) X) i). rewrite vnth_skipn, vnth_firstn.
    assert (A : (i <? length X - 2)%nat = true) by (apply Nat.ltb_lt; lia). rewrite A.
    replace (S i + 1)%nat with (2 + i)%nat by lia. replace (S i - 1)%nat with i by lia. reflexivity.
  - unfold vnth at 1. replace (length X - 1)%nat with (S (length X - 2)) at 1 by lia. cbn [nth].
    rewrite app_nth2 by lia. rewrite LI, Nat.sub_diag. reflexivity.
Qed.
Lemma affine_length a b t0 h n : length (affine a b t0 h n) = n.
Proof. unfold affine. now rewrite map_length, seq_length. Qed.
Lemma vnth_affine a b t0 h n i : (i < n)%nat -> vnth (affine a b t0 h n) i = a + b * (t0 + INR i * h).
Proof. intros H. unfold affine. rewrite vnth_map_seq by exact H. reflexivity. Qed.
Lemma derivative_affine a b t0 h n : (2 <= n)%nat -> h <> 0 -> exists Y, num_derivative1 D_float (affine a b t0 h n) h = Ok Y /\
  length Y = n /\ (forall i, (i + 1 < n)%nat -> vnth Y i = b) /\ vnth Y (n - 1) = - b.
Proof.
  intros N H. destruct (num_derivative1_ok D_float (affine a b t0 h n) h) as (Y & E & L & F & I & Z); rewrite ?affine_length in *; auto.
  exists Y. split; [exact E|]. split; [exact L|]. cbn [store] in *. split.
  - intros i Hi. destruct i as [|i].
    + rewrite F, !vnth_affine by lia. cbn [INR]. field. exact H.
    + rewrite I by lia. rewrite !vnth_affine by lia. rewrite plus_INR. replace (S i - 1)%nat with i by lia. rewrite S_INR. cbn [INR]. field. exact H.
  - rewrite Z, !vnth_affine by lia. replace (n - 1)%nat with (S (n - 2)) by lia. rewrite S_INR. field. exact H.
Qed.
Lemma derivative_short dt X h : (length X < 2)%nat -> num_derivative1 dt X h = Err IndexError.
Proof. intros L. unfold num_derivative1, num_derivative. apply Nat.ltb_lt in L. now rewrite L. Qed.
(** Differentiating the integral. *)
Lemma derivative_of_integral X t0 h : h <> 0 -> (2 <= length X)%nat ->
  exists Y Z, trapz_integrate1 D_float X (affine 0 1 t0 h (length X)) = Ok Y /\ num_derivative1 D_float Y h = Ok Z /\
    length Z = length X /\ vnth Z 0 = (vnth X 0 + vnth X 1) / 2 /\
    (forall i, (1 <= i)%nat -> (i + 1 < length X)%nat -> vnth Z i = (vnth X (i - 1) + 2 * vnth X i + vnth X (i + 1)) / 4) /\
    vnth Z (length X - 1) = - ((vnth X (length X - 2) + vnth X (length X - 1)) / 2).
Proof.
  intros H L. destruct (trapz_steps X (affine 0 1 t0 h (length X))) as (Y & E & LY & S0 & ST); [now rewrite affine_length|].
  destruct (num_derivative1_ok D_float Y h) as (Z & EZ & LZ & F & I & B); [lia|].
  exists Y, Z. split; [exact E|]. split; [exact EZ|]. split; [congruence|]. cbn [store] in *. rewrite LY in *.
  assert (D : forall i, (S i < length X)%nat -> vnth Y (S i) - vnth Y i = h * (vnth X (S i) + vnth X i) / 2).
  { intros i Hi. rewrite ST by exact Hi. rewrite !vnth_affine by lia. rewrite S_INR. field. }
  split; [|split].
  - rewrite F, D by lia. field. exact H.
  - intros i I1 I2. rewrite I by lia. destruct i as [|i]; [lia|]. replace (S i + 1)%nat with (S (S i)) by lia. replace (S i - 1)%nat with i by lia.
    replace (vnth Y (S (S i)) - vnth Y i) with ((vnth Y (S (S i)) - vnth Y (S i)) + (vnth Y (S i) - vnth Y i)) by ring.
    rewrite !D by lia. field. exact H.
  - rewrite B. replace (length X - 1)%nat with (S (length X - 2)) by lia.
    replace (vnth Y (length X - 2) - vnth Y (S (length X - 2))) with (- (vnth Y (S (length X - 2)) - vnth Y (length X - 2))) by ring.
    rewrite D by lia. field. exact H.
Qed.
(** Two dimensions *)
Lemma derivative_rows X h n c : shaped n c X -> (2 <= n)%nat -> exists Y, num_derivative2 D_float X h = Ok Y /\ length Y = n /\
  forall j, (j < c)%nat -> num_derivative1 D_float (mcol j X) h = Ok (mcol j Y).
Proof.
  intros SH N. pose proof (shaped_length _ _ _ SH) as SL. unfold num_derivative2, num_derivative. rewrite SL.
  assert (LN : (n <? 2)%nat = false) by (apply Nat.ltb_ge; lia). rewrite LN. eexists. split; [reflexivity|]. split.
  { cbn [length]. rewrite app_length, map_length, map2_length, skipn_length, firstn_length. cbn [length]. lia. }
  intros j Hj. unfold num_derivative1, num_derivative. rewrite mcol_length, SL, LN. f_equal.
  assert (ROW : forall i, (i < n)%nat -> length (nth i X []) = c).
  { intros i Hi. exact (shaped_row n c X i SH Hi). }
  assert (Q : forall a b k, length a = c -> length b = c -> vnth (map (store D_float) (vdivs (vsub a b) k)) j = store D_float ((vnth a j - vnth b j) / k)).
  { intros a b k La Lb. unfold vnth at 1. rewrite (nth_map' _ _ _ 0) by (rewrite PreludeFacts.vdivs_length, vsub_length; lia).
    fold (vnth (vdivs (vsub a b) k) j). rewrite vnth_vdivs, vnth_vsub by congruence. reflexivity. }
  assert (M : forall i, (i < n)%nat -> nth i (mcol j X) 0 = vnth (nth i X []) j).
  { intros i Hi. unfold mcol. now rewrite (nth_map' _ _ _ []) by lia. }
  assert (MC : forall a l b, mcol j (a :: l ++ [b]) = vnth a j :: mcol j l ++ [vnth b j]).
  { intros a l b. unfold mcol. cbn [map]. now rewrite map_app. }
  assert (MN : forall Z i, (i < length Z)%nat -> nth i (mcol j Z) 0 = vnth (nth i Z []) j).
  { intros Z i Hi. unfold mcol. now rewrite (nth_map' _ _ _ []). }
  rewrite MC. f_equal; [|f_equal; [|f_equal]].
  - rewrite Q by (apply ROW; lia). rewrite !M by lia. reflexivity.
  - apply (list_ext 0).
    { rewrite mcol_length, !map_length, !map2_length, !skipn_length, !firstn_length, mcol_length. lia. }
    intros i Hi. rewrite map_length, map2_length, skipn_length, firstn_length, mcol_length in Hi.
    rewrite MN by (rewrite map_length, map2_length, skipn_length, firstn_length; lia).
    rewrite (nth_map' _ _ _ 0) by (rewrite map2_length, skipn_length, firstn_length, mcol_length; lia).
    rewrite (PreludeFacts.nth_map2 _ _ _ i 0 0 0) by (rewrite ?skipn_length, ?firstn_length, ?mcol_length; lia).
    rewrite (nth_map' _ _ _ []) by (rewrite map2_length, skipn_length, firstn_length; lia).
    rewrite (PreludeFacts.nth_map2 _ _ _ i [] [] []) by (rewrite ?skipn_length, ?firstn_length; lia).
    rewrite !nth_skipn', !PreludeFacts.nth_firstn. assert (A : (i <? n - 2)%nat = true) by (apply Nat.ltb_lt; lia). rewrite !A.
    rewrite Q by (apply ROW; lia). rewrite !M by lia. reflexivity.
  - rewrite Q by (apply ROW; lia). rewrite !M by lia. reflexivity.
Qed.
(** trapz_integrate of two dimensions: it integrates along the wrong axis *)
Lemma bc_length {A B C} (f : A -> B -> C) a b l : bc f a b = Ok l -> length a = length b \/ length a = 1%nat \/ length b = 1%nat.
Proof.
  unfold bc. destruct (length a =? length b)%nat eqn:E; [apply Nat.eqb_eq in E; auto|].
  destruct a as [|x [|? ?]]; [destruct b as [|y [|? ?]]; cbn; auto; discriminate|cbn; auto|destruct b as [|y [|? ?]]; cbn; auto; discriminate].
Qed.
Lemma mapm_length {A B} (f : A -> Res B) l : forall r, mapm f l = Ok r -> length r = length l.
Proof.
  induction l as [|a l IH]; intros r H; cbn in H; [inversion H; reflexivity|].
  destruct (f a); [|discriminate]. cbn in H. destruct (mapm f l); [|discriminate]. cbn in H. inversion H; subst. cbn. now rewrite (IH _ eq_refl).
Qed.
Lemma trapz2_rows y t r : trapz2 y t = Ok r -> length r = length y.
Proof.
  unfold trapz2. destruct (mapm _ y) as [p|] eqn:E; [|discriminate]. cbn. intros H. inversion H; subst.
  rewrite map_length. exact (mapm_length _ _ _ E).
Qed.
Lemma bc_err {A B C} (f : A -> B -> C) a b e : bc f a b = Err e -> e = ValueError.
Proof.
  unfold bc. destruct (_ =? _)%nat; [discriminate|]. destruct a as [|x [|? ?]]; [destruct b as [|y [|? ?]]|discriminate|destruct b as [|y [|? ?]]]; intros H; congruence.
Qed.
Lemma mapm_err_all {A B} (f : A -> Res B) l e0 : (forall a e, f a = Err e -> e = e0) -> forall e, mapm f l = Err e -> e = e0.
Proof.
  intros F. induction l as [|a l IH]; intros e H; cbn in H; [discriminate|]. destruct (f a) as [b|e'] eqn:E; cbn in H.
  - destruct (mapm f l) as [r|e'']; cbn in H; [discriminate|]. apply IH. congruence.
  - apply (F a). congruence.
Qed.
Lemma trapz_2d_fails dt c X t n : shaped n c X -> length t = n -> (2 <= n)%nat -> n <> 2%nat \/ c <> 2%nat ->
  trapz_integrate2 dt c X t = Err ValueError.
Proof.
  intros SH LT N NE. pose proof (shaped_length _ _ _ SH) as SL. unfold trapz_integrate2.
  destruct X as [|row X'] eqn:EX; [cbn in SL; lia|]. rewrite <- EX in *.
  set (body := fun i => do r <- trapz2 (firstn (i + 1) X) (firstn (i + 1) t); do row0 <- set_row c r; Ok (map (store dt) row0)).
  assert (BV : forall i e, body i = Err e -> e = ValueError).
  { intros i e H. unfold body in H. destruct (trapz2 _ _) as [r|e'] eqn:ET; cbn [rbind] in H.
    - unfold set_row in H. destruct (_ =? _)%nat; [discriminate|]. destruct r as [|x [|? ?]]; cbn in H; congruence.
    - unfold trapz2 in ET. destruct (mapm _ (firstn (i + 1) X)) as [p|e''] eqn:EM; cbn in ET; [discriminate|].
      assert (e'' = ValueError) by (eapply mapm_err_all; [|exact EM]; intros a e1; apply bc_err). congruence. }
  assert (BS : forall i l, (1 <= i < n)%nat -> body i = Ok l -> c = (i + 1)%nat).
  { intros i l Hi H. unfold body in H. destruct (trapz2 _ _) as [r|e'] eqn:ET; cbn [rbind] in H; [|discriminate].
    apply trapz2_rows in ET. rewrite firstn_length, SL in ET. unfold set_row in H.
    destruct (length r =? c)%nat eqn:E; [apply Nat.eqb_eq in E; lia|]. destruct r as [|x [|? ?]]; cbn in H; try discriminate. cbn in ET. lia. }
  rewrite SL. destruct (mapm body (seq 1 (n - 1))) as [rest|e] eqn:EM.
  - exfalso. assert (ALL : forall i, In i (seq 1 (n - 1)) -> exists l, body i = Ok l).
    { intros i Hi. destruct (body i) as [l|e] eqn:EB; [eauto|]. exfalso. clear - EM Hi EB.
      revert rest EM. induction (seq 1 (n - 1)) as [|k s IH]; intros rest EM; [contradiction|]. cbn in EM.
      destruct Hi as [->|Hi]; [now rewrite EB in EM|]. destruct (body k); cbn in EM; [|discriminate].
      destruct (mapm body s) as [q|]; cbn in EM; [|discriminate]. exact (IH Hi q eq_refl). }
    destruct (ALL 1%nat) as [l1 B1]; [apply in_seq; lia|]. pose proof (BS 1%nat l1 ltac:(lia) B1) as C1.
    assert (N3 : (3 <= n)%nat) by lia. destruct (ALL 2%nat) as [l2 B2]; [apply in_seq; lia|]. pose proof (BS 2%nat l2 ltac:(lia) B2). lia.
  - cbn [rbind]. f_equal. eapply mapm_err_all; [|exact EM]. exact BV.
Qed.
Ltac leq := repeat match goal with |- Ok _ = Ok _ => f_equal | |- _ :: _ = _ :: _ => f_equal | |- @eq R _ _ => lra | |- [] = [] => reflexivity end.
Lemma trapz_2d_wrong : trapz_integrate2 D_float 2 [[1; 2]; [3; 4]] [0; 1] = Ok [[0; 0]; [3 / 2; 7 / 2]] /\
  trapz_integrate1 D_float [1; 3] [0; 1] = Ok [0; 2] /\ trapz_integrate1 D_float [2; 4] [0; 1] = Ok [0; 3].
Proof.
  split; [|split].
  - unfold trapz_integrate2. cbn -[Rmult Rplus Rdiv Rminus]. leq.
  - unfold trapz_integrate1. cbn -[Rmult Rplus Rdiv Rminus]. leq.
  - unfold trapz_integrate1. cbn -[Rmult Rplus Rdiv Rminus]. leq.
Qed.
(** Arrays of integers *)
Lemma truncate_half : truncate (1 / 2) = 0.
Proof.
  unfold truncate. destruct (Rle_dec 0 (1 / 2)); [|lra]. unfold Int_part.
  assert (E : up (1 / 2) = 1%Z); [|now rewrite E]. symmetry. apply tech_up; lra.
Qed.
Lemma integers_truncated : num_derivative1 D_int [0; 1; 2] 2 = Ok [0; 0; 0].
Proof.
  unfold num_derivative1, num_derivative. cbn -[Rmult Rdiv Rminus truncate].
  replace ((1 - 0) / 2) with (1 / 2) by lra. replace ((2 - 0) / (2 * 2)) with (1 / 2) by lra. replace ((1 - 2) / 2) with (- (1 / 2)) by lra.
  rewrite truncate_half. assert (E : truncate (- (1 / 2)) = 0); [|now rewrite E].
  unfold truncate. destruct (Rle_dec 0 (- (1 / 2))); [lra|]. rewrite Ropp_involutive. unfold Int_part.
  assert (E : up (1 / 2) = 1%Z) by (symmetry; apply tech_up; lra). rewrite E. cbn. lra.
Qed.

(** ** C69: numerical functions on arrays of samples *)
Section Samples.
  Variables (X U : mat) (p : vec) (n nx nu : nat).
  Hypothesis SX : shaped n nx X.
  Hypothesis SU : shaped n nu U.
  Definition sample (i : nat) : vec := mrow i X ++ mrow i U ++ p.
  Definition all_vars : list ent := map (fun j => E1 (mcol j X)) (seq 0 nx) ++ map (fun j => E1 (mcol j U)) (seq 0 nu) ++ map E0 p.
  Lemma all_vars_length : length all_vars = (nx + nu + length p)%nat.
  Proof. unfold all_vars. rewrite !app_length, !map_length, !seq_length. lia. Qed.
  Lemma eval_samples e : eval all_vars e = Ok (if uses_first (nx + nu) e then E1 (map (fun i => scalar_value (sample i) e) (seq 0 n))
                                               else E0 (scalar_value (repeat 0 (nx + nu) ++ p) e)).
  Proof.
    pose proof (shaped_length _ _ _ SX) as LX. pose proof (shaped_length _ _ _ SU) as LU.
    induction e as [r|j|f e IH|f e1 IH1 e2 IH2]; cbn [eval uses_first scalar_value].
    - reflexivity.
    - f_equal. unfold all_vars. destruct (j <? nx + nu)%nat eqn:E.
      + apply Nat.ltb_lt in E. destruct (Nat.lt_ge_cases j nx) as [J|J].
        * rewrite app_nth1 by (rewrite map_length, seq_length; lia). rewrite (nth_map' _ _ _ 0%nat) by (rewrite seq_length; lia).
          rewrite seq_nth by exact J. cbn [Nat.add]. f_equal. apply vec_ext; [rewrite mcol_length, map_length, seq_length; exact LX|].
          intros i Hi. rewrite mcol_length in Hi. rewrite vnth_mcol by exact Hi. rewrite vnth_map_seq by lia. unfold mget, sample. cbn [Nat.add].
          unfold vnth. rewrite app_nth1; [reflexivity|]. pose proof (shaped_row n nx X i SX) as Q. unfold mrow in *. rewrite Q; lia.
        * rewrite app_nth2 by (rewrite map_length, seq_length; lia). rewrite map_length, seq_length.
          rewrite app_nth1 by (rewrite map_length, seq_length; lia). rewrite (nth_map' _ _ _ 0%nat) by (rewrite seq_length; lia).
          rewrite seq_nth by lia. cbn [Nat.add]. f_equal. apply vec_ext; [rewrite mcol_length, map_length, seq_length; exact LU|].
          intros i Hi. rewrite mcol_length in Hi. rewrite vnth_mcol by exact Hi. rewrite vnth_map_seq by lia. unfold mget, sample. cbn [Nat.add].
          pose proof (shaped_row n nx X i SX) as Q. pose proof (shaped_row n nu U i SU) as Q2. unfold mrow in *. unfold vnth.
          rewrite app_nth2 by (rewrite Q; lia). rewrite Q by lia. rewrite app_nth1 by (rewrite Q2; lia). reflexivity.
      + apply Nat.ltb_ge in E. rewrite app_nth2 by (rewrite map_length, seq_length; lia). rewrite map_length, seq_length.
        rewrite app_nth2 by (rewrite map_length, seq_length; lia). rewrite map_length, seq_length.
        unfold vnth. rewrite app_nth2 by (rewrite repeat_length; lia). rewrite repeat_length.
        replace (j - nx - nu)%nat with (j - (nx + nu))%nat by lia. now rewrite map_nth.
    - rewrite IH. cbn [rbind]. f_equal. destruct (uses_first (nx + nu) e); [now rewrite map_map|reflexivity].
    - rewrite IH1, IH2. cbn [rbind].
      assert (CONST : forall e v w, uses_first (nx + nu) e = false -> length v = (nx + nu)%nat -> length w = (nx + nu)%nat ->
                scalar_value (v ++ p) e = scalar_value (w ++ p) e).
      { clear. intros e v w. induction e as [r|j|f e IH|f e1 IH1 e2 IH2]; cbn [uses_first scalar_value]; intros H Lv Lw.
        - reflexivity.
        - apply Nat.ltb_ge in H. unfold vnth. rewrite !app_nth2 by lia. now rewrite Lv, Lw.
        - now rewrite IH.
        - apply orb_false_iff in H. destruct H. now rewrite IH1, IH2. }
      assert (LS : forall i, (i < n)%nat -> length (mrow i X ++ mrow i U) = (nx + nu)%nat).
      { intros i Hi. rewrite app_length. rewrite (shaped_row n nx X i SX), (shaped_row n nu U i SU) by exact Hi. reflexivity. }
      assert (CS : forall e i, uses_first (nx + nu) e = false -> (i < n)%nat -> scalar_value (sample i) e = scalar_value (repeat 0 (nx + nu) ++ p) e).
      { intros e i He Hi. unfold sample. rewrite app_assoc. apply CONST; auto. now rewrite repeat_length. }
      destruct (uses_first (nx + nu) e1) eqn:U1, (uses_first (nx + nu) e2) eqn:U2; cbn [orb].
      + unfold bc. rewrite !map_length, !seq_length, Nat.eqb_refl. cbn [rbind]. f_equal. f_equal.
        apply (list_ext 0); [now rewrite map2_length, !map_length, !seq_length, Nat.min_id|]. intros i Hi.
        rewrite map2_length, !map_length, !seq_length, Nat.min_id in Hi.
        rewrite (PreludeFacts.nth_map2 _ _ _ i 0 0 0) by (rewrite map_length, seq_length; exact Hi).
        rewrite !(nth_map' _ _ _ 0%nat) by (rewrite seq_length; exact Hi). reflexivity.
      + f_equal. f_equal. rewrite map_map. apply map_ext_in. intros i Hi. apply in_seq in Hi. rewrite (CS e2 i U2) by lia. reflexivity.
      + f_equal. f_equal. rewrite map_map. apply map_ext_in. intros i Hi. apply in_seq in Hi. rewrite (CS e1 i U1) by lia. reflexivity.
      + reflexivity.
  Qed.
  Lemma unpack_samples : unpack_all [A2 nx X; A2 nu U; A1 p] = Ok all_vars.
  Proof. cbn [unpack_all unpack rbind]. now rewrite app_nil_r. Qed.
  Definition result_of (e : expr) : ent :=
    if uses_first (nx + nu) e then E1 (map (fun i => scalar_value (sample i) e) (seq 0 n)) else E0 (scalar_value (repeat 0 (nx + nu) ++ p) e).
  Lemma new_F_results funcs : new_F (nx + nu + length p) funcs [A2 nx X; A2 nu U; A1 p] = congruent_concatenate (map result_of funcs).
  Proof.
    unfold new_F. rewrite unpack_samples. cbn [rbind]. rewrite all_vars_length, Nat.eqb_refl. cbn [negb andb].
    rewrite (mapm_ext _ (fun e => Ok (result_of e))) by (intros e _; apply eval_samples). rewrite mapm_Ok. reflexivity.
  Qed.
  (** Row by row, when every function has a state or a control in it. *)
  Lemma new_F_rows funcs : funcs <> [] -> n <> 1%nat -> Forall (fun e => uses_first (nx + nu) e = true) funcs ->
    exists Y, new_F (nx + nu + length p) funcs [A2 nx X; A2 nu U; A1 p] = Ok (A2 (length funcs) Y) /\
      length Y = n /\ forall i, (i < n)%nat -> mrow i Y = map (scalar_value (sample i)) funcs.
  Proof.
    intros NE N F. rewrite new_F_results.
    set (cols := map (fun e => map (fun i => scalar_value (sample i) e) (seq 0 n)) funcs).
    assert (E : map result_of funcs = map E1 cols).
    { unfold cols. rewrite map_map. apply map_ext_in. intros e He. unfold result_of. rewrite Forall_forall in F. now rewrite (F e He). }
    assert (FC : Forall (fun v => length v = n) cols).
    { apply Forall_forall. intros v Hv. apply in_map_iff in Hv. destruct Hv as (e & <- & _). now rewrite map_length, seq_length. }
    assert (LC : (1 <= length cols)%nat) by (unfold cols; rewrite map_length; destruct funcs; [congruence|cbn; lia]).
    rewrite E, (cc_columns n cols FC LC N). assert (LE : length cols = length funcs) by (unfold cols; apply map_length).
    exists (columns cols). rewrite LE. split; [reflexivity|]. pose proof (columns_shaped n cols FC LC) as SC.
    split; [now apply shaped_length in SC|]. intros i Hi. pose proof (shaped_row _ _ _ i SC Hi) as LR.
    apply vec_ext; [rewrite LR, map_length; exact LE|]. rewrite LR. intros j Hj.
    change (mget (columns cols) i j = vnth (map (scalar_value (sample i)) funcs) j). rewrite (mget_columns n) by auto.
    unfold vnth. unfold cols. rewrite (nth_map' _ _ _ (X_const 0)) by lia. rewrite (nth_map' _ _ _ 0%nat) by (rewrite seq_length; exact Hi).
    rewrite seq_nth by exact Hi. rewrite (nth_map' _ _ _ (X_const 0)) by lia. reflexivity.
  Qed.
  (** One without them: an AssertionError, or the values of one sample only. *)
  Lemma new_F_constant funcs : n <> 1%nat -> (exists e, In e funcs /\ uses_first (nx + nu) e = false) ->
    (exists e, In e funcs /\ uses_first (nx + nu) e = true) ->
    new_F (nx + nu + length p) funcs [A2 nx X; A2 nu U; A1 p] = Err AssertionError.
  Proof.
    intros N (e0 & I0 & H0) (e1 & I1 & H1). rewrite new_F_results. unfold congruent_concatenate.
    destruct (map result_of funcs) as [|x l] eqn:E; [destruct funcs; [contradiction|discriminate]|].
    assert (J0 : In (E0 (scalar_value (repeat 0 (nx + nu) ++ p) e0)) (x :: l)).
    { rewrite <- E. apply in_map_iff. exists e0. split; [|exact I0]. unfold result_of. now rewrite H0. }
    assert (J1 : In (E1 (map (fun i => scalar_value (sample i) e1) (seq 0 n))) (x :: l)).
    { rewrite <- E. apply in_map_iff. exists e1. split; [|exact I1]. unfold result_of. now rewrite H1. }
    destruct (size x =? 1)%nat.
    - destruct (forallb zero_d (x :: l)) eqn:F; [|reflexivity]. rewrite forallb_forall in F. specialize (F _ J1). discriminate.
    - destruct (forallb (fun e => negb (zero_d e)) (x :: l)) eqn:F; [|reflexivity]. rewrite forallb_forall in F. specialize (F _ J0). discriminate.
  Qed.
  Lemma new_F_all_constant funcs : funcs <> [] -> Forall (fun e => uses_first (nx + nu) e = false) funcs ->
    new_F (nx + nu + length p) funcs [A2 nx X; A2 nu U; A1 p] = Ok (A1 (map (scalar_value (repeat 0 (nx + nu) ++ p)) funcs)).
  Proof.
    intros NE F. rewrite new_F_results.
    assert (E : map result_of funcs = map E0 (map (scalar_value (repeat 0 (nx + nu) ++ p)) funcs)).
    { rewrite map_map. apply map_ext_in. intros e He. unfold result_of. rewrite Forall_forall in F. now rewrite (F e He). }
    rewrite E. set (v := map _ funcs). assert (NV : v <> []) by (unfold v; destruct funcs; [congruence|discriminate]).
    pose proof (round1 v NV) as R1. cbn [unpack rbind] in R1. exact R1.
  Qed.
  Lemma new_F_one_sample funcs : n = 1%nat -> (exists e, In e funcs /\ uses_first (nx + nu) e = true) ->
    new_F (nx + nu + length p) funcs [A2 nx X; A2 nu U; A1 p] = Err AssertionError.
  Proof.
    intros N (e1 & I1 & H1). rewrite new_F_results. unfold congruent_concatenate.
    destruct (map result_of funcs) as [|x l] eqn:E; [destruct funcs; [contradiction|discriminate]|].
    assert (J1 : In (E1 (map (fun i => scalar_value (sample i) e1) (seq 0 n))) (x :: l)).
    { rewrite <- E. apply in_map_iff. exists e1. split; [|exact I1]. unfold result_of. now rewrite H1. }
    assert (SZ : size x = 1%nat).
    { assert (J : In x (map result_of funcs)) by (rewrite E; now left). apply in_map_iff in J. destruct J as (e & <- & _).
      unfold result_of. destruct (uses_first (nx + nu) e); [|reflexivity]. cbn [size]. now rewrite map_length, seq_length. }
    rewrite SZ. cbn [Nat.eqb]. destruct (forallb zero_d (x :: l)) eqn:F; [|reflexivity]. rewrite forallb_forall in F. specialize (F _ J1). discriminate.
  Qed.
End Samples.

(** A single state: 1-D arrays. *)
Lemma eval_scalars vals e : eval (map E0 vals) e = Ok (E0 (scalar_value vals e)).
Proof.
  induction e as [r|j|f e IH|f e1 IH1 e2 IH2]; cbn [eval scalar_value]; [reflexivity| |now rewrite IH|now rewrite IH1, IH2].
  f_equal. unfold vnth. now rewrite map_nth.
Qed.
Lemma unpack_vectors l : unpack_all (map A1 l) = Ok (map E0 (concat l)).
Proof. induction l as [|v l IH]; [reflexivity|]. cbn [map unpack_all unpack rbind concat]. rewrite IH. cbn [rbind]. now rewrite map_app. Qed.
Lemma new_F_vector funcs l : funcs <> [] -> new_F (length (concat l)) funcs (map A1 l) = Ok (A1 (map (scalar_value (concat l)) funcs)).
Proof.
  intros NE. unfold new_F. rewrite unpack_vectors. cbn [rbind]. rewrite map_length, Nat.eqb_refl. cbn [negb andb].
  rewrite (mapm_ext _ (fun e => Ok (E0 (scalar_value (concat l) e)))) by (intros e _; apply eval_scalars). rewrite mapm_Ok. cbn [rbind].
  set (v := map (scalar_value (concat l)) funcs). assert (NV : v <> []) by (unfold v; destruct funcs; [congruence|discriminate]).
  pose proof (round1 v NV) as R1. cbn [unpack rbind] in R1. unfold v in R1 at 1. rewrite map_map in R1. exact R1.
Qed.
(** Which functions *)
Lemma rhs_x_short n_q RHS : length RHS = n_q -> rhs_funcs n_q RHS "x" = Ok (map X_var (seq n_q n_q) ++ RHS).
Proof. intros E. unfold rhs_funcs. cbn [String.eqb Ascii.eqb Bool.eqb]. now rewrite E, Nat.eqb_refl. Qed.
Lemma rhs_x_first_order n_q (RHS : list expr) (q v rest : vec) : length RHS = n_q -> length q = n_q -> length v = n_q ->
  exists funcs, rhs_funcs n_q RHS "x" = Ok funcs /\
    map (scalar_value (q ++ v ++ rest)) funcs = v ++ map (scalar_value (q ++ v ++ rest)) RHS.
Proof.
  intros E Lq Lv. eexists. split; [now apply rhs_x_short|]. rewrite map_app, map_map. f_equal. cbn [scalar_value].
  apply vec_ext; [now rewrite map_length, seq_length|]. rewrite map_length, seq_length. intros i Hi. rewrite vnth_map_seq by exact Hi.
  unfold vnth. rewrite app_nth2 by lia. rewrite app_nth1 by lia. f_equal. lia.
Qed.
Lemma rhs_full n_q RHS : (1 <= n_q)%nat -> length RHS = (2 * n_q)%nat ->
  rhs_funcs n_q RHS "x" = Ok RHS /\ rhs_funcs n_q RHS "q" = Ok (skipn n_q RHS).
Proof.
  intros N E. unfold rhs_funcs. cbn [String.eqb Ascii.eqb Bool.eqb]. rewrite E.
  assert (A : (n_q =? 2 * n_q)%nat = false) by (apply Nat.eqb_neq; lia). rewrite A, Nat.eqb_refl. split; [reflexivity|].
  f_equal. f_equal. rewrite Nat.mul_comm. apply Nat.div_mul. lia.
Qed.
Lemma rhs_q_short n_q RHS : length RHS = n_q -> rhs_funcs n_q RHS "q" = Ok RHS.
Proof. intros E. unfold rhs_funcs. cbn [String.eqb Ascii.eqb Bool.eqb]. now rewrite E, Nat.eqb_refl. Qed.
Lemma rhs_bad n_q RHS mode : (length RHS <> n_q /\ length RHS <> 2 * n_q)%nat \/ (mode <> "x" /\ mode <> "q")%string ->
  rhs_funcs n_q RHS mode = Err ValueError.
Proof.
  unfold rhs_funcs. intros [[A B]|[A B]].
  - apply not_eq_sym in A. apply Nat.eqb_neq in A, B. rewrite A, B. now destruct (String.eqb mode "x"), (String.eqb mode "q").
  - apply String.eqb_neq in A, B. now rewrite A, B.
Qed.
