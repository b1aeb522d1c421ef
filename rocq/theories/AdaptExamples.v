(** Examples for the adaptive refinement. *)
From Coq Require Import String ZArith.
From Coquelicot Require Import Coquelicot.
From Verif Require Import Prelude PreludeFacts Poly PolyFacts PolyInterp Mat MatFacts PwModel PwFacts PwSpec PwInterpModel PwInterpSpec PsModel PsSpec
  PsProblemProofs PsPointsProofs JacobiFacts UtilModel UtilSpec BuTdModel BuTdSpec BuTdFacts PhModel PhSpec PhExamples AnalysisModel AnalysisSpec AnalysisErrProofs AnalysisExamples
  AdaptModel AdaptSpec AdaptProofs AdaptErrProofs.
Open Scope R_scope.
Open Scope vec_scope.
Open Scope list_scope.

Theorem struct_example : exists knots, calc_new_struct 3 25 [10; 24]%Z [2; 30]%Z [0; 1; 4] = Ok (knots, [12; 18; 18; 18]%Z) /\ knots = [1; 2; 3].
Proof. eexists. split; [reflexivity|]. change (Z.to_nat 3) with 3%nat. change (Pos.to_nat 3) with 3%nat. cbn. change (Pos.to_nat 3) with 3%nat. cbn. apply (f_equal2 cons); [reflexivity|]. apply (f_equal2 cons); [field|]. apply (f_equal2 cons); [field|reflexivity]. Qed.

(** ** The loop *)
(** The first attempt fails; the errors are 121 with less than 12 points and
    1/2 otherwise. *)
Definition toy_problem (i : nat) (N : Z) (knots : vec) (p : list Z) : Res (vec * list Z) :=
  if (i =? 0)%nat then Err RuntimeError else Ok (knots, p).
Definition toy_knots (r : vec * list Z) : vec := [0] ++ fst r ++ [1].
Definition toy_p (r : vec * list Z) : list Z := snd r.
Definition toy_errors (r : vec * list Z) : Res vec := Ok (map (fun q => if (q <? 12)%Z then 121 else /2) (snd r)).
Lemma add_121 undef : add_point undef 1 121 11 = 2%Z.
Proof.
  pose proof (add_point_ok undef 1 121 11 ltac:(lra) ltac:(lra) ltac:(lia)) as H. cbv zeta in H.
  set (a := add_point undef 1 121 11) in *. clearbody a.
  assert (M : forall x y : Z, (x <= y)%Z -> powerRZ 11 x <= powerRZ 11 y).
  { intros x y Hxy. rewrite !powerRZ_Rpower by lra. apply Rle_Rpower; [lra|]. now apply IZR_le. }
  destruct H as [H1 H2].
  assert (V1 : powerRZ 11 1 = 11) by (change (powerRZ 11 1) with (11 ^ 1); ring). assert (V2 : powerRZ 11 2 = 121) by (change (powerRZ 11 2) with (11 ^ 2); ring).
  destruct (Z.lt_trichotomy a 2) as [A|[A|A]]; [exfalso|exact A|exfalso].
  - pose proof (M a 1%Z ltac:(lia)). lra.
  - pose proof (M 2%Z (a - 1)%Z ltac:(lia)). lra.
Qed.
Lemma toy_step3 undef k :
  refine undef toy_problem toy_knots toy_p toy_errors 3 25 500 1 true (S k) 2 [] [13%Z] [([], [11%Z])] =
  Ok ([([], [11%Z]); ([], [13%Z])], [Solved [] [13%Z] ([], [13%Z]) [/2]]).
Proof. cbn [refine negb]. unfold toy_problem, toy_errors. cbn. destruct (Rlt_dec (/2) 1); [reflexivity|lra]. Qed.
Lemma toy_step2 undef k :
  refine undef toy_problem toy_knots toy_p toy_errors 3 25 500 1 true (S (S k)) 1 [] [11%Z] [] =
  Ok ([([], [11%Z]); ([], [13%Z])], [Solved [] [11%Z] ([], [11%Z]) [121]; Solved [] [13%Z] ([], [13%Z]) [/2]]).
Proof.
  pose proof (toy_step3 undef k) as H3. remember (S k) as k1. cbn [refine negb].
  change (toy_problem 1 (zsum [11%Z]) [] [11%Z]) with (Ok ([] : vec, [11%Z])). cbv iota.
  change (toy_errors ([], [11%Z])) with (Ok [121]). cbn [rbind]. unfold npmax. cbn [fold_right].
  destruct (Rlt_dec 121 1); [lra|].
  change (add_points undef 1 [121] (toy_p ([], [11%Z]))) with [add_point undef 1 121 11]. rewrite add_121.
  change (calc_new_struct 3 25 [11%Z] [2%Z] (toy_knots ([], [11%Z]))) with (Ok ([] : vec, [13%Z])).
  cbn [rbind app]. change (500 <? zsum [13])%Z with false. cbv iota. rewrite H3. reflexivity.
Qed.
Theorem toy_run undef :
  adaptive_refinement_system undef toy_problem toy_knots toy_p toy_errors 3 25 500 1 true 100 None [10%Z] =
  Ok ([([], [11%Z]); ([], [13%Z])],
      [Failed [] [10%Z]; Solved [] [11%Z] ([], [11%Z]) [121]; Solved [] [13%Z] ([], [13%Z]) [/2]]).
Proof.
  unfold adaptive_refinement_system. change 100%nat with (S (S (S 97))). generalize 97%nat as k; intros k.
  pose proof (toy_step2 undef k) as H2. remember (S (S k)) as k2. cbn [refine negb].
  change (toy_problem 0 (zsum [10%Z]) [] [10%Z]) with (@Err (vec * list Z) RuntimeError). cbv iota.
  change (map (Z.add 1) [10%Z]) with [11%Z]. rewrite H2. reflexivity.
Qed.
(** The point added after a failure is not counted against the limit. *)
Theorem toy_limit_refuted undef : exists p r,
  adaptive_refinement_system undef toy_problem toy_knots toy_p toy_errors 3 25 5 1 true 100 None [12%Z] = Ok ([r], [Failed [] [12%Z]; Solved [] p r [/2]]) /\
  total p = 13%Z.
Proof.
  exists [13%Z], ([], [13%Z]). split; [|reflexivity]. unfold adaptive_refinement_system. change 100%nat with (S (S 98)). generalize 98%nat as k; intros k.
  assert (H : refine undef toy_problem toy_knots toy_p toy_errors 3 25 5 1 true (S k) 1 [] [13%Z] [] = Ok ([([], [13%Z])], [Solved [] [13%Z] ([], [13%Z]) [/2]])).
  { cbn [refine negb]. unfold toy_problem, toy_errors. cbn. destruct (Rlt_dec (/2) 1); [reflexivity|lra]. }
  remember (S k) as k1. cbn [refine negb].
  change (toy_problem 0 (zsum [12%Z]) [] [12%Z]) with (@Err (vec * list Z) RuntimeError). cbv iota.
  change (map (Z.add 1) [12%Z]) with [13%Z]. rewrite H. reflexivity.
Qed.

(** ** Errors of the mass *)
Section Mass.
Variable rr : list R -> list R.
Hypothesis OK : real_roots_ok rr.
Variable lg : nat -> vec * vec.
Variable u_other : string -> R -> Res vec.
Variable hermite : list R -> list vec -> list vec -> R -> vec.
Theorem mass_segment_errors s : In s bt_schemes -> exists t r pts errs,
  ph_t_arr rr (mass_problem Ph_td s) [1] [2; 3]%nat = Ok t /\
  saved rr (mass_problem Ph_td s) [1] [2; 3]%nat (mass_motion rr [2; 3]%nat t) = Ok r /\
  analyze_res_err rr lg u_other hermite r [2; 3]%nat (fun x u => [vnth x 1; vnth u 0]) = Ok (pts, errs) /\
  test_points_are rr s [0; 1; 3] [2; 3]%nat pts /\
  errs = [[[0]; [0]; [0]]; [[0]; [0]; [0]; [0]]] /\
  max_err rr lg u_other hermite r pts errs = Ok [0; 0].
Proof.
  intros H. destruct (mass_covers rr OK lg u_other hermite s H) as (t & r & Et & Er & HC). exists t, r.
  assert (F1 : h_t_knot_ext r = [0; 1; 3] /\ h_n_segments r = 2%nat /\ h_scheme r = s).
  { unfold saved in Er. rewrite Et in Er. cbn [rbind] in Er. destruct (ph_t_col rr (mass_problem Ph_td s) [1] [2; 3]%nat); [|discriminate]. cbn [rbind] in Er. injection Er as <-. cbn. auto. }
  destruct F1 as (FK & FN & FS).
  destruct (motion_segment_errors rr OK lg u_other hermite r [2; 3]%nat (fun x u => [vnth x 1; vnth u 0]) 1 [[[0; 0; 1]]; [[0; 0; 1]]] [[[2]]; [[2]]]) as (pts & errs & m & E & TP & BL & EM & HM).
  - now rewrite FN.
  - now rewrite FN, FK.
  - rewrite FS. now apply bt_all.
  - rewrite FS. apply mass_enough.
  - lia.
  - intros; cbn; lia.
  - intros s' Hs'. destruct s' as [|[|s']]; [reflexivity|reflexivity|cbn in Hs'; lia].
  - rewrite FK. exact HC.
  - rewrite FK, FS in TP. pose proof TP as (LP & HP). destruct BL as (LE & HE). exists pts, errs. do 3 (split; [assumption|]). split; [exact TP|].
    assert (Z0 : forall s' a, (s' < 2)%nat -> rate_n_at 2 (nth s' [[[0; 0; 1]]; [[0; 0; 1]]] []) a -v
       lastn 1 ((fun x u => [vnth x 1; vnth u 0]) (full_state 2 (nth s' [[[0; 0; 1]]; [[0; 0; 1]]] []) a) (state_at (nth s' [[[2]]; [[2]]] []) a)) = [0]).
    { intros s' a Hs'. assert (EP : nth s' [[[0; 0; 1]]; [[0; 0; 1]]] [] = [[0; 0; 1]] /\ nth s' [[[2]]; [[2]]] [] = [[2]]) by (destruct s' as [|[|s']]; [now split|now split|lia]).
      destruct EP as [-> ->]. unfold rate_n_at. cbn [map]. rewrite Derive_n_peval. rewrite full_state_parabola. cbv - [Rplus Rmult Rminus IZR Rinv Ropp]. f_equal. ring. }
    assert (B : forall s', (s' < 2)%nat -> nth s' errs [] = repeat [0] (S (nth s' [2; 3]%nat 0%nat))).
    { intros s' Hs'. rewrite HE by exact Hs'. destruct (HP s' Hs') as (c & _ & Lc & ->). rewrite <- Lc. unfold tau_to_t_points. rewrite map_map.
      clear Lc. induction c as [|a c IH]; [reflexivity|]. cbn [map length repeat]. rewrite IH. f_equal. now apply Z0. }
    assert (Ee : errs = [[[0]; [0]; [0]]; [[0]; [0]; [0]; [0]]]).
    { destruct errs as [|e0 [|e1 [|]]]; try discriminate LE. pose proof (B 0%nat ltac:(lia)) as B0. pose proof (B 1%nat ltac:(lia)) as B1. cbn in B0, B1. now rewrite B0, B1. }
    split; [exact Ee|]. rewrite EM. f_equal. destruct HM as (Lm & HM).
    assert (M0 : forall s', (s' < 2)%nat -> vnth m s' = 0).
    { intros s' Hs'. destruct (HM s' Hs') as (me & mq & (A & _) & _ & ->). 
      assert (me = 0); [|subst; unfold Rdiv; ring]. rewrite B in A by exact Hs'. apply in_map_iff in A. destruct A as (x & <- & Hx).
      apply in_concat in Hx. destruct Hx as (l & Hl & Hx). apply repeat_spec in Hl. subst l. destruct Hx as [<-|[]]. apply Rabs_R0. }
    destruct m as [|m0 [|m1 [|]]]; try discriminate Lm. pose proof (M0 0%nat ltac:(lia)) as B0. pose proof (M0 1%nat ltac:(lia)) as B1. cbn in B0, B1. now rewrite B0, B1.
Qed.
End Mass.

(** A mass from rest to rest in one second: the error of one second is counted
    as two. *)
Theorem run_error_example : run_error 3 [[1]; [1]; [1]] = [2] /\ total_state_error (linspace 0 1 3) [[1]; [1]; [1]] = [1].
Proof.
  assert (A : Rabs 1 = 1) by (apply Rabs_R1). split; unfold run_error, total_state_error, linspace; cbn; rewrite A; f_equal; field.
Qed.
