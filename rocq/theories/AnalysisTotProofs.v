(** Proofs for C101: summaries of the errors of a result. *)
From Coquelicot Require Import Coquelicot.
From Coq Require Import String.
From Verif Require Import Prelude PreludeFacts Mat PwInterpModel PsModel UtilModel AnalysisModel AnalysisPwProofs AnalysisTotSpec AdaptModel AdaptSpec AdaptProofs.
Open Scope R_scope.
Open Scope list_scope.

Lemma RInt_affine a b x y : is_RInt (fun t => a + b * t) x y ((y - x) * ((a + b * x) + (a + b * y)) / 2).
Proof.
  replace ((y - x) * ((a + b * x) + (a + b * y)) / 2) with (minus (a * y + b * y ^ 2 / 2) (a * x + b * x ^ 2 / 2)) by (unfold minus, plus, opp; cbn; field).
  apply (is_RInt_derive (fun t => a * t + b * t ^ 2 / 2) (fun t => a + b * t)).
  - intros t _. auto_derive; [exact I|]. field.
  - intros t _. apply (ex_derive_continuous (fun t => a + b * t)). auto_derive. exact I.
Qed.
Lemma increasing_tail a t : increasing (a :: t) -> increasing t.
Proof. intros H i Hi. apply (H (S i)). cbn [length]. lia. Qed.
Lemma polyline_tail a b t y w : polyline (a :: t) (b :: y) w -> polyline t y w.
Proof.
  intros [H1 H2]. split.
  - intros i Hi. apply (H1 (S i)). cbn [length]. lia.
  - intros i Hi. apply (H2 (S i)). cbn [length]. lia.
Qed.
Lemma trapz_is_integral w : forall t y, increasing t -> length y = length t -> (0 < length t)%nat -> polyline t y w ->
  is_RInt w (vnth t 0) (vnth t (length t - 1)) (np_trapz y t).
Proof.
  induction t as [|t0 t IH]; intros y HI HL HP HW; [cbn in HP; lia|].
  destruct y as [|y0 y]; [discriminate HL|]. destruct t as [|t1 t].
  - destruct y; [|discriminate HL]. cbn. apply (is_RInt_point w t0).
  - destruct y as [|y1 y]; [discriminate HL|].
    change (np_trapz (y0 :: y1 :: y) (t0 :: t1 :: t)) with ((t1 - t0) * (y0 + y1) / 2 + np_trapz (y1 :: y) (t1 :: t)).
    assert (L : (t0 < t1)%R) by (apply (HI 0%nat); cbn; lia).
    change (vnth (t0 :: t1 :: t) 0) with t0.
    replace (vnth (t0 :: t1 :: t) (length (t0 :: t1 :: t) - 1)) with (vnth (t1 :: t) (length (t1 :: t) - 1)).
    2:{ cbn [length]. rewrite !Nat.sub_succ, !Nat.sub_0_r. reflexivity. }
    apply (is_RInt_Chasles w t0 t1).
    + destruct HW as [H1 H2]. destruct (H2 0%nat ltac:(cbn; lia)) as (a & b & E).
      pose proof (H1 0%nat ltac:(cbn; lia)) as E0. pose proof (H1 1%nat ltac:(cbn; lia)) as E1.
      unfold vnth in E, E0, E1. cbn [nth] in E, E0, E1. rewrite E in E0 by lra. rewrite E in E1 by lra.
      rewrite <- E0, <- E1. apply is_RInt_ext with (f := fun t => a + b * t); [|apply RInt_affine].
      intros x. rewrite Rmin_left, Rmax_right by lra. intros Hx. symmetry. apply E. lra.
    + apply IH; [eapply increasing_tail; exact HI|cbn in HL; cbn; lia|cbn; lia|eapply polyline_tail; exact HW].
Qed.

(** Each entry of the total is the integral of the polyline through the
    absolute values of its column. *)
Lemma total_width t x : length (total_state_error t x) = mwidth x.
Proof. unfold total_state_error. now rewrite map_length, seq_length. Qed.
Lemma total_entry t x j : (j < mwidth x)%nat -> vnth (total_state_error t x) j = np_trapz (map Rabs (mcol j x)) t.
Proof. intros Hj. unfold total_state_error. now rewrite vnth_map_seq by exact Hj. Qed.
Theorem total_integral t x j w : increasing t -> length x = length t -> (0 < length t)%nat -> (j < mwidth x)%nat ->
  polyline t (map (fun r => Rabs (vnth r j)) x) w ->
  is_RInt w (vnth t 0) (vnth t (length t - 1)) (vnth (total_state_error t x) j).
Proof.
  intros HI HL HP Hj HW. rewrite total_entry by exact Hj. apply trapz_is_integral; auto.
  - unfold mcol. now rewrite !map_length.
  - unfold mcol. rewrite map_map. exact HW.
Qed.

(** It does not underestimate the integral of the absolute value of the
    polyline through the errors. *)
Lemma affine_between a b x y z : x <= z <= y -> x < y ->
  a + b * z = ((y - z) * (a + b * x) + (z - x) * (a + b * y)) / (y - x).
Proof. intros H L. field. lra. Qed.
Lemma trapz_over w : forall t y (I : R), increasing t -> length y = length t -> (0 < length t)%nat -> polyline t y w ->
  is_RInt (fun s => Rabs (w s)) (vnth t 0) (vnth t (length t - 1)) I -> I <= np_trapz (map Rabs y) t.
Proof.
  induction t as [|t0 t IH]; intros y I HI HL HP HW HR; [cbn in HP; lia|].
  destruct y as [|y0 y]; [discriminate HL|]. destruct t as [|t1 t].
  - destruct y; [|discriminate HL]. cbn in HR |- *.
    rewrite <- (is_RInt_unique _ _ _ _ HR), RInt_point. apply Rle_refl.
  - destruct y as [|y1 y]; [discriminate HL|].
    change (np_trapz (map Rabs (y0 :: y1 :: y)) (t0 :: t1 :: t)) with ((t1 - t0) * (Rabs y0 + Rabs y1) / 2 + np_trapz (map Rabs (y1 :: y)) (t1 :: t)).
    assert (L : (t0 < t1)%R) by (apply (HI 0%nat); cbn; lia).
    change (vnth (t0 :: t1 :: t) 0) with t0 in HR.
    replace (vnth (t0 :: t1 :: t) (length (t0 :: t1 :: t) - 1)) with (vnth (t1 :: t) (length (t1 :: t) - 1)) in HR.
    2:{ cbn [length]. rewrite !Nat.sub_succ, !Nat.sub_0_r. reflexivity. }
    assert (HW' : polyline (t1 :: t) (y1 :: y) w) by (eapply polyline_tail; exact HW).
    assert (HI' : increasing (t1 :: t)) by (eapply increasing_tail; exact HI).
    destruct HW as [H1 H2]. destruct (H2 0%nat ltac:(cbn; lia)) as (a & b & E).
    pose proof (H1 0%nat ltac:(cbn; lia)) as E0. pose proof (H1 1%nat ltac:(cbn; lia)) as E1.
    unfold vnth in E, E0, E1. cbn [nth] in E, E0, E1. rewrite E in E0 by lra. rewrite E in E1 by lra.
    assert (C1 : is_RInt (fun s => Rabs (w s)) t0 t1 (RInt (fun s => Rabs (a + b * s)) t0 t1)).
    { apply is_RInt_ext with (f := fun s => Rabs (a + b * s)).
      - intros x. rewrite Rmin_left, Rmax_right by lra. intros Hx. f_equal. symmetry. apply E. lra.
      - apply (RInt_correct (fun s => Rabs (a + b * s))). apply (ex_RInt_continuous (fun s => Rabs (a + b * s))). intros z _.
        apply (continuous_comp (fun s => a + b * s) Rabs); [|apply (@continuous_Rabs (a + b * z))].
        apply (ex_derive_continuous (fun t => a + b * t)). auto_derive. exact Logic.I. }
    assert (C2 : is_RInt (fun s => Rabs (w s)) t1 (vnth (t1 :: t) (length (t1 :: t) - 1)) (I - RInt (fun s => Rabs (a + b * s)) t0 t1)).
    { replace (I - RInt (fun s => Rabs (a + b * s)) t0 t1) with (plus (opp (RInt (fun s => Rabs (a + b * s)) t0 t1)) I) by (unfold plus, opp; cbn; ring).
      apply (is_RInt_Chasles (fun s => Rabs (w s)) t1 t0); [|exact HR]. apply (is_RInt_swap (fun s => Rabs (w s))). exact C1. }
    apply (IH (y1 :: y)) in C2; [|exact HI'|cbn in HL; cbn; lia|cbn; lia|exact HW'].
    assert (B : RInt (fun s => Rabs (a + b * s)) t0 t1 <= (t1 - t0) * (Rabs y0 + Rabs y1) / 2); [|lra].
    set (q := (Rabs y1 - Rabs y0) / (t1 - t0)). set (p := Rabs y0 - q * t0).
    assert (P0 : p + q * t0 = Rabs y0) by (unfold p; ring).
    assert (P1 : p + q * t1 = Rabs y1) by (unfold p, q; field; lra).
    rewrite <- P0, <- P1. rewrite <- (is_RInt_unique _ _ _ _ (RInt_affine p q t0 t1)).
    apply RInt_le; [lra| | |].
    + apply (ex_RInt_continuous (fun s => Rabs (a + b * s))). intros z _.
      apply (continuous_comp (fun s => a + b * s) Rabs); [|apply (@continuous_Rabs (a + b * z))].
      apply (ex_derive_continuous (fun t => a + b * t)). auto_derive. exact Logic.I.
    + eexists. apply RInt_affine.
    + intros z Hz. rewrite (affine_between a b t0 t1 z), (affine_between p q t0 t1 z) by lra. rewrite P0, P1, E0, E1.
      unfold Rdiv. rewrite Rabs_mult, (Rabs_right (/ (t1 - t0))) by (apply Rle_ge, Rlt_le, Rinv_0_lt_compat; lra).
      apply Rmult_le_compat_r; [apply Rlt_le, Rinv_0_lt_compat; lra|].
      eapply Rle_trans; [apply Rabs_triang|]. rewrite !Rabs_mult, (Rabs_right (t1 - z)), (Rabs_right (z - t0)) by lra. lra.
Qed.
Theorem total_over t x j w (I : R) : increasing t -> length x = length t -> (0 < length t)%nat -> (j < mwidth x)%nat ->
  polyline t (map (fun r => vnth r j) x) w ->
  is_RInt (fun s => Rabs (w s)) (vnth t 0) (vnth t (length t - 1)) I -> I <= vnth (total_state_error t x) j.
Proof.
  intros HI HL HP Hj HW HR. rewrite total_entry by exact Hj. apply (trapz_over w); auto. unfold mcol. now rewrite map_length.
Qed.

(** Zero only when all the errors are. *)
Lemma trapz_pos y : forall t, increasing t -> length y = length t -> 0 <= np_trapz (map Rabs y) t /\
  ((2 <= length t)%nat -> np_trapz (map Rabs y) t = 0 -> Forall (fun a => a = 0) y).
Proof.
  induction y as [|y0 y IH]; intros [|t0 t] HI HL; try discriminate HL.
  - cbn. split; [lra|lia].
  - destruct t as [|t1 t], y as [|y1 y]; try discriminate HL.
    + cbn. split; [lra|lia].
    + change (np_trapz (map Rabs (y0 :: y1 :: y)) (t0 :: t1 :: t)) with ((t1 - t0) * (Rabs y0 + Rabs y1) / 2 + np_trapz (map Rabs (y1 :: y)) (t1 :: t)).
      assert (L : (t0 < t1)%R) by (apply (HI 0%nat); cbn; lia).
      destruct (IH (t1 :: t) (increasing_tail _ _ HI) ltac:(cbn in HL; cbn; lia)) as [A B].
      pose proof (Rabs_pos y0) as P0. pose proof (Rabs_pos y1) as P1.
      assert (C : 0 <= (t1 - t0) * (Rabs y0 + Rabs y1)) by (apply Rmult_le_pos; lra).
      split; [lra|]. intros _ Z.
      assert (Z1 : (t1 - t0) * (Rabs y0 + Rabs y1) = 0) by lra.
      apply Rmult_integral in Z1. destruct Z1 as [Z1|Z1]; [lra|].
      assert (y0 = 0) by (destruct (Req_dec y0 0) as [|N]; [assumption|apply Rabs_no_R0 in N; lra]).
      assert (y1 = 0) by (destruct (Req_dec y1 0) as [|N]; [assumption|apply Rabs_no_R0 in N; lra]).
      constructor; [assumption|]. destruct t as [|t2 t].
      * destruct y; [|discriminate HL]. now repeat constructor.
      * apply B; [cbn; lia|lra].
Qed.
Lemma trapz_zero : forall y t, Forall (fun a => a = 0) y -> np_trapz (map Rabs y) t = 0.
Proof.
  induction y as [|y0 y IH]; intros [|t0 t] HF; try reflexivity.
  pose proof (Forall_inv HF) as E0. pose proof (Forall_inv_tail HF) as HF'. cbv beta in E0. subst y0.
  destruct y as [|y1 y], t as [|t1 t]; try reflexivity.
  pose proof (Forall_inv HF') as E1. cbv beta in E1. subst y1.
  change (np_trapz (map Rabs (0 :: 0 :: y)) (t0 :: t1 :: t)) with ((t1 - t0) * (Rabs 0 + Rabs 0) / 2 + np_trapz (map Rabs (0 :: y)) (t1 :: t)).
  rewrite IH by exact HF'. rewrite Rabs_R0. field.
Qed.
Theorem total_zero t x j : increasing t -> length x = length t -> (2 <= length t)%nat -> (j < mwidth x)%nat ->
  0 <= vnth (total_state_error t x) j /\
  (vnth (total_state_error t x) j = 0 <-> forall i, (i < length x)%nat -> vnth (nth i x []) j = 0).
Proof.
  intros HI HL H2 Hj. rewrite total_entry by exact Hj.
  destruct (trapz_pos (mcol j x) t HI ltac:(unfold mcol; now rewrite map_length)) as [A B].
  split; [exact A|]. split.
  - intros Z i Hi. specialize (B H2 Z). rewrite Forall_forall in B. apply B. unfold mcol. apply (in_map (fun r => vnth r j)). now apply nth_In.
  - intros Z. apply trapz_zero. apply Forall_forall. intros a Ha. unfold mcol in Ha. apply in_map_iff in Ha.
    destruct Ha as (r & <- & Hr). destruct (In_nth _ _ [] Hr) as (i & Hi & <-). now apply Z.
Qed.

(** Not more than the largest absolute error times the duration. *)
Lemma trapz_bound m : forall y t, increasing t -> length y = length t -> (0 < length t)%nat -> Forall (fun a => Rabs a <= m) y ->
  np_trapz (map Rabs y) t <= m * (vnth t (length t - 1) - vnth t 0).
Proof.
  induction y as [|y0 y IH]; intros [|t0 t] HI HL HP HF; try discriminate HL; [cbn in HP; lia|].
  destruct t as [|t1 t], y as [|y1 y]; try discriminate HL; [cbn; lra|].
  change (np_trapz (map Rabs (y0 :: y1 :: y)) (t0 :: t1 :: t)) with ((t1 - t0) * (Rabs y0 + Rabs y1) / 2 + np_trapz (map Rabs (y1 :: y)) (t1 :: t)).
  assert (L : (t0 < t1)%R) by (apply (HI 0%nat); cbn; lia).
  pose proof (Forall_inv HF) as E0. pose proof (Forall_inv_tail HF) as HF'. pose proof (Forall_inv HF') as E1. cbv beta in E0, E1.
  specialize (IH (t1 :: t) (increasing_tail _ _ HI) ltac:(cbn in HL; cbn; lia) ltac:(cbn; lia) HF').
  change (vnth (t0 :: t1 :: t) 0) with t0.
  replace (vnth (t0 :: t1 :: t) (length (t0 :: t1 :: t) - 1)) with (vnth (t1 :: t) (length (t1 :: t) - 1)).
  2:{ cbn [length]. rewrite !Nat.sub_succ, !Nat.sub_0_r. reflexivity. }
  change (vnth (t1 :: t) 0) with t1 in IH.
  assert (B : (t1 - t0) * (Rabs y0 + Rabs y1) / 2 <= m * (t1 - t0)) by nra. lra.
Qed.
Theorem total_bound t x j m : increasing t -> length x = length t -> (0 < length t)%nat -> (j < mwidth x)%nat ->
  (forall i, (i < length x)%nat -> Rabs (vnth (nth i x []) j) <= m) ->
  vnth (total_state_error t x) j <= m * (vnth t (length t - 1) - vnth t 0).
Proof.
  intros HI HL HP Hj HB. rewrite total_entry by exact Hj. apply trapz_bound; auto.
  - unfold mcol. now rewrite map_length.
  - apply Forall_forall. intros a Ha. unfold mcol in Ha. apply in_map_iff in Ha.
    destruct Ha as (r & <- & Hr). destruct (In_nth _ _ [] Hr) as (i & Hi & <-). now apply HB.
Qed.

(** Totals of consecutive runs add up. *)
Lemma trapz_split : forall y1 t1 a s y2 t2, length y1 = length t1 ->
  np_trapz (y1 ++ a :: y2) (t1 ++ s :: t2) = np_trapz (y1 ++ [a]) (t1 ++ [s]) + np_trapz (a :: y2) (s :: t2).
Proof.
  induction y1 as [|b y1 IH]; intros [|r t1] a s y2 t2 H; try discriminate H; [cbn [app]; cbn [np_trapz]; ring|].
  cbn in H. specialize (IH t1 a s y2 t2 ltac:(lia)).
  destruct y1 as [|c y1], t1 as [|q t1]; try discriminate H.
  - cbn [app] in *. cbn [np_trapz] in *. destruct y2, t2; lra.
  - change (np_trapz ((b :: c :: y1) ++ a :: y2) ((r :: q :: t1) ++ s :: t2)) with ((q - r) * (b + c) / 2 + np_trapz ((c :: y1) ++ a :: y2) ((q :: t1) ++ s :: t2)).
    change (np_trapz ((b :: c :: y1) ++ [a]) ((r :: q :: t1) ++ [s])) with ((q - r) * (b + c) / 2 + np_trapz ((c :: y1) ++ [a]) ((q :: t1) ++ [s])).
    rewrite IH. ring.
Qed.
Theorem total_split c t1 s t2 x1 (a : vec) x2 j : length x1 = length t1 -> length x2 = length t2 -> (forall r, In r (x1 ++ a :: x2) -> length r = c) -> (j < c)%nat ->
  vnth (total_state_error (t1 ++ s :: t2) (x1 ++ a :: x2)) j =
  vnth (total_state_error (t1 ++ [s]) (x1 ++ [a])) j + vnth (total_state_error (s :: t2) (a :: x2)) j.
Proof.
  intros H1 H2 HC Hj.
  assert (A : length a = c) by (apply HC, in_or_app; right; now left).
  assert (W1 : mwidth (x1 ++ a :: x2) = c) by (destruct x1 as [|r x1]; cbn; [exact A|apply HC; now left]).
  assert (W2 : mwidth (x1 ++ [a]) = c) by (destruct x1 as [|r x1]; cbn; [exact A|apply HC; now left]).
  rewrite !total_entry by (rewrite ?W1, ?W2; cbn; lia). unfold mcol. rewrite !map_app. cbn [map].
  apply trapz_split. now rewrite !map_length.
Qed.

(** ** Rows *)
Lemma mapm_ok {A B} (f : A -> Res B) (g : A -> B) l : (forall a, In a l -> f a = Ok (g a)) -> mapm f l = Ok (map g l).
Proof. induction l as [|a l IH]; intros H; [reflexivity|]. cbn [mapm map]. rewrite H by (now left). cbn [rbind]. rewrite IH by (intros; apply H; now right). reflexivity. Qed.
Lemma mapm_bad {A B} (f : A -> Res B) l a e : In a l -> f a = Err e -> (forall b e', f b = Err e' -> e' = e) -> mapm f l = Err e.
Proof.
  intros Ha He Hu. induction l as [|b l IH]; [destruct Ha|]. cbn [mapm]. destruct Ha as [->|Ha]; [now rewrite He|].
  destruct (f b) as [y|e'] eqn:Eb; cbn [rbind]; [|now rewrite (Hu _ _ Eb)]. now rewrite (IH Ha).
Qed.
Theorem row_max x : (forall r, In r x -> r <> []) ->
  exists m, arr_max x = Ok m /\ length m = length x /\ forall i, (i < length x)%nat -> largest_abs (nth i x []) (vnth m i).
Proof.
  intros H. exists (map (fun r => npmax (map Rabs r)) x). split; [|split; [apply map_length|]].
  - unfold arr_max. apply mapm_ok. intros r Hr. specialize (H r Hr). destruct r; [congruence|reflexivity].
  - intros i Hi. unfold vnth. rewrite (nth_map' _ _ _ []) by exact Hi.
    assert (NE : map Rabs (nth i x []) <> []) by (specialize (H _ (nth_In x [] Hi)); destruct (nth i x []); [congruence|discriminate]).
    destruct (npmax_is_max _ NE) as [M1 M2]. split.
    + apply in_map_iff in M1. destruct M1 as (a & E & I). exists a. now split.
    + intros a Ha. apply M2. now apply in_map.
Qed.
Theorem row_max_empty x : In [] x -> arr_max x = Err ValueError.
Proof. intros H. apply (mapm_bad _ _ []); [exact H|reflexivity|]. intros [|] e'; [|discriminate]. intros E. now injection E. Qed.

(** The three summaries of a row agree up to the number of columns. *)
Lemma sum_nonneg r : 0 <= vsum (map Rabs r).
Proof. induction r as [|a r IH]; [cbn; lra|]. cbn [map]. unfold vsum in *. cbn [fold_right]. pose proof (Rabs_pos a). lra. Qed.
Lemma sq_le_sum r : vsum (map (fun a => a * a) r) <= vsum (map Rabs r) * vsum (map Rabs r).
Proof.
  induction r as [|a r IH]; [cbn; lra|]. pose proof (sum_nonneg r) as N. cbn [map]. unfold vsum in *. cbn [fold_right].
  assert (E : a * a = Rabs a * Rabs a) by (rewrite <- Rabs_mult; symmetry; apply Rabs_right; nra).
  pose proof (Rabs_pos a). nra.
Qed.
Lemma abs_le_sq r x : In x r -> x * x <= vsum (map (fun a => a * a) r).
Proof.
  assert (P : forall r, 0 <= vsum (map (fun a => a * a) r)).
  { clear. induction r as [|a r IH]; [cbn; lra|]. cbn [map]. unfold vsum in *. cbn [fold_right]. nra. }
  induction r as [|a r IH]; [intros []|]. specialize (P r). cbn [map]. unfold vsum in *. cbn [fold_right]. intros [->|H]; [lra|]. specialize (IH H). nra.
Qed.
Lemma sum_le_max r m : (forall x, In x r -> Rabs x <= m) -> vsum (map Rabs r) <= INR (length r) * m.
Proof.
  induction r as [|a r IH]; intros H; [cbn; lra|]. cbn [map]. unfold vsum in *. cbn [fold_right length]. rewrite S_INR.
  specialize (IH ltac:(intros; apply H; now right)). specialize (H a ltac:(now left)). lra.
Qed.
Lemma sq_le_sq_abs a b : 0 <= b -> a * a <= b * b -> a <= b.
Proof. intros B H. destruct (Rle_lt_dec a b); [assumption|nra]. Qed.
Theorem row_order x m i : arr_max x = Ok m -> (i < length x)%nat ->
  vnth m i <= vnth (arr_mod x) i /\ vnth (arr_mod x) i <= vnth (arr_sum x) i /\
  vnth (arr_sum x) i <= INR (length (nth i x [])) * vnth m i.
Proof.
  intros Hm Hi.
  assert (NE : forall r, In r x -> r <> []).
  { intros r Hr ->. rewrite row_max_empty in Hm by exact Hr. discriminate. }
  destruct (row_max x NE) as (m' & E & _ & H). rewrite E in Hm. injection Hm as ->. destruct (H i Hi) as [(a & Ia & Ea) Hx].
  destruct (arr_mod_ok x) as [_ HM]. destruct (HM i Hi) as [M0 M1]. destruct (arr_sum_ok x) as [_ HS]. specialize (HS i Hi).
  split; [|split].
  - apply sq_le_sq_abs; [exact M0|]. rewrite M1, Ea, <- Rabs_mult, Rabs_right by nra. now apply abs_le_sq.
  - rewrite HS. apply sq_le_sq_abs; [apply sum_nonneg|]. rewrite M1. apply sq_le_sum.
  - rewrite HS. now apply sum_le_max.
Qed.

(** Polylines exist. *)
Theorem polyline_exists : forall t y, increasing t -> length y = length t -> exists w, polyline t y w.
Proof.
  assert (G : forall t y, increasing t -> length y = length t -> exists w, polyline t y w).
  { induction t as [|t0 t IH]; intros y HI HL.
    - exists (fun _ => 0). split; cbn; intros; lia.
    - destruct y as [|y0 y]; [discriminate HL|]. destruct t as [|t1 t].
      + exists (fun _ => y0). split; cbn; intros i Hi; [|lia]. now destruct i; [|lia].
      + destruct y as [|y1 y]; [discriminate HL|].
        destruct (IH (y1 :: y) (increasing_tail _ _ HI) ltac:(cbn in HL; cbn; lia)) as (w & W1 & W2).
        assert (L : (t0 < t1)%R) by (apply (HI 0%nat); cbn; lia).
        assert (GE : forall i, (i < length (t1 :: t))%nat -> t1 <= vnth (t1 :: t) i).
        { induction i as [|i IHi]; intros Hi; [cbn; lra|]. specialize (increasing_tail _ _ HI i Hi). specialize (IHi ltac:(lia)). cbn in *. lra. }
        pose proof (W1 0%nat ltac:(cbn; lia)) as Wt. unfold vnth in Wt. cbn [nth] in Wt.
        exists (fun x => if Rle_dec x t1 then y0 + (y1 - y0) / (t1 - t0) * (x - t0) else w x). split.
        * intros [|i] Hi.
          { unfold vnth. cbn [nth]. destruct (Rle_dec t0 t1); [|lra]. ring. }
          specialize (GE i ltac:(cbn in *; lia)). specialize (W1 i ltac:(cbn in *; lia)).
          change (vnth (t0 :: t1 :: t) (S i)) with (vnth (t1 :: t) i). change (vnth (y0 :: y1 :: y) (S i)) with (vnth (y1 :: y) i).
          destruct (Rle_dec (vnth (t1 :: t) i) t1) as [A|A]; [|exact W1].
          assert (Q : vnth (t1 :: t) i = t1) by lra. rewrite <- W1, Q, Wt. field. lra.
        * intros [|i] Hi.
          { exists (y0 - (y1 - y0) / (t1 - t0) * t0), ((y1 - y0) / (t1 - t0)). intros x. unfold vnth. cbn [nth]. intros Hx. destruct (Rle_dec x t1); [ring|lra]. }
          destruct (W2 i ltac:(cbn in *; lia)) as (a & b & E). exists a, b. intros x.
          change (vnth (t0 :: t1 :: t) (S (S i))) with (vnth (t1 :: t) (S i)). change (vnth (t0 :: t1 :: t) (S i)) with (vnth (t1 :: t) i).
          intros Hx. specialize (GE i ltac:(cbn in *; lia)). destruct (Rle_dec x t1) as [A|A]; [|now apply E].
          assert (Q : x = t1) by lra. subst x. rewrite <- E by lra. rewrite Wt. field. lra. }
  exact G.
Qed.
Theorem total_example : increasing [0; 1; 3] /\ total_state_error [0; 1; 3] [[1; -2]; [-3; 0]; [0; 4]] = [5; 5] /\
  arr_sum [[1; -2]; [-3; 0]] = [3; 3] /\ arr_max [[1; -2]; [-3; 0]] = Ok [2; 3].
Proof.
  split; [|split; [|split]].
  - intros [|[|i]] H; cbn in *; try lra; lia.
  - unfold total_state_error. cbn. repeat (rewrite ?(Rabs_right 1), ?(Rabs_right 0), ?(Rabs_right 4) by lra). rewrite (Rabs_left (-2)), (Rabs_left (-3)) by lra. repeat f_equal; field.
  - unfold arr_sum. cbn. rewrite (Rabs_right 1), (Rabs_right 0), (Rabs_left (-2)), (Rabs_left (-3)) by lra. repeat f_equal; ring.
  - unfold arr_max. cbn. rewrite (Rabs_right 1), (Rabs_right 0), (Rabs_left (-2)), (Rabs_left (-3)) by lra. unfold npmax. cbn. repeat f_equal; apply Rmax_case_strong; lra.
Qed.
