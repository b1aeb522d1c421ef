(** Dynamic errors. *)
From Coq Require Import String.
From Coquelicot Require Import Coquelicot.
From Verif Require Import Prelude PreludeFacts Poly PolyFacts PolyInterp Mat MatFacts PwModel PwFacts PwSpec PwInterpModel PwInterpSpec PwInterpProofs PwFinalProofs
  PsModel PsSpec PsPointsProofs PsProblemProofs PsMoreProofs PsBaryProofs PsApplyProofs PsInterpProofs BuTdSpec BuTdFacts BuTdApplyProofs BuTdInterpProofs PhModel PhSpec
  AnalysisModel AnalysisSpec AnalysisProofs AnalysisPhProofs AnalysisSegProofs AnalysisSavedProofs AnalysisJoinProofs.
Open Scope R_scope.
Open Scope vec_scope.
Open Scope list_scope.

(** ** From the interpolations *)
Lemma errors_row F mode M nq B u t d x : (1 <= M)%nat -> shows M B u t d -> get (KX 0) d = Ok x -> length x = (M * nq)%nat ->
  In mode ["q"; "x"]%string ->
  let f := lastn nq (F (if (mode =? "q")%string then flat_map (fun i => B 0%nat i) (seq 0 M) else x) u) in
  errors_from_row F mode M d = Ok (put KF f d, {| e_dyn := B 0%nat M -v f; e_compat := map (fun j => B 0 (j + 1) -v B (j + 1) 0)%nat (seq 0 (M - 1)) |}).
Proof.
  intros HM (GT & GU & GB & GL) GX LX Hm f. unfold errors_from_row.
  rewrite (mapm_some _ (fun i => B 0%nat i)).
  2:{ intros i Hi. apply in_seq in Hi. apply GB; lia. }
  cbn [rbind]. rewrite GX. cbn [rbind].
  assert (E : (if (mode =? "q")%string then Ok (concat (map (fun i => B 0%nat i) (seq 0 M))) else if (mode =? "x")%string then Ok x else Err ValueError)
     = Ok (if (mode =? "q")%string then flat_map (fun i => B 0%nat i) (seq 0 M) else x)).
  { rewrite flat_map_concat_map. destruct Hm as [<-|[<-|[]]]; reflexivity. }
  rewrite E. cbn [rbind]. rewrite GU. cbn [rbind].
  replace (length x / M)%nat with nq by (rewrite LX, Nat.mul_comm, Nat.div_mul by lia; reflexivity).
  replace (length x mod M)%nat with 0%nat by (rewrite LX, Nat.mul_comm, Nat.mod_mul by lia; reflexivity).
  cbn [Nat.eqb negb]. fold f.
  rewrite get_put_other by discriminate. rewrite (GB M 0%nat) by lia. cbn [rbind].
  rewrite (mapm_some _ (fun j => B 0 (j + 1) -v B (j + 1) 0)%nat).
  2:{ intros j Hj. apply in_seq in Hj. rewrite !get_put_other by discriminate. rewrite !GB by lia. reflexivity. }
  reflexivity.
Qed.

Lemma bad_mode F mode M B u t d x : (1 <= M)%nat -> shows M B u t d -> get (KX 0) d = Ok x -> ~ In mode ["q"; "x"]%string ->
  errors_from_row F mode M d = Err ValueError.
Proof.
  intros HM (GT & GU & GB & GL) GX Hm. unfold errors_from_row.
  rewrite (mapm_some _ (fun i => B 0%nat i)).
  2:{ intros i Hi. apply in_seq in Hi. apply GB; lia. }
  cbn [rbind]. rewrite GX. cbn [rbind].
  destruct (String.eqb_spec mode "q"); [subst; exfalso; apply Hm; cbn; auto|].
  destruct (String.eqb_spec mode "x"); [subst; exfalso; apply Hm; cbn; auto|]. reflexivity.
Qed.

Lemma vsub_self v : v -v v = repeat 0 (length v).
Proof. induction v as [|a v IH]; [reflexivity|]. unfold vsub in *. cbn [map2 length repeat]. rewrite IH. f_equal. ring. Qed.

Section Segments.
Variables (K : list R) (n : nat) (Tm : nat -> R) (rows : list row) (F : vec -> vec -> vec) (mode : string) (nq : nat) (Ps Us : list (list (list R))).
Hypothesis HM' : In mode ["q"; "x"]%string.

Lemma dynamic_errors_rows (M : nat) (Q : row -> error_row -> Prop) :
  (forall d, In d rows -> exists d' e, errors_from_row F mode M d = Ok (d', e) /\ Q d e) ->
  exists rows' errs, dynamic_errors_from_interp rows F mode M = Ok (rows', errs) /\ length errs = length rows /\
    forall m e0, (m < length rows)%nat -> Q (nth m rows []) (nth m errs e0).
Proof.
  intros H. unfold dynamic_errors_from_interp.
  destruct (mapm_choose (errors_from_row F mode M) (fun d p => Q d (snd p)) [] ([], {| e_dyn := []; e_compat := [] |}) rows) as (l & E & L & HQ).
  { intros d Hd. destruct (H d Hd) as (d' & e & E & q). exists (d', e). auto. }
  rewrite E. cbn [rbind]. exists (map fst l), (map snd l). split; [reflexivity|]. split; [now rewrite map_length|].
  intros m e0 Hm. rewrite (nth_indep _ e0 (snd (([], {| e_dyn := []; e_compat := [] |}) : row * error_row))) by (rewrite map_length; lia). rewrite map_nth. now apply HQ.
Qed.

Theorem motion_errors (M : nat) : (1 <= M)%nat -> (forall s, (s + 1 < length K)%nat -> length (nth s Ps []) = nq) ->
  sampled K n (motion_sample M Ps Us) Tm rows ->
  exists rows' errs, dynamic_errors_from_interp rows F mode M = Ok (rows', errs) /\ length errs = n /\
    forall m e0, (m < n)%nat -> exists s, (s + 1 < length K)%nat /\ vnth K s <= Tm m <= vnth K (s + 1) /\
      (Tm m = vnth K (s + 1) -> (s + 2 = length K)%nat) /\
      e_dyn (nth m errs e0) = rate_n_at M (nth s Ps []) (Tm m) -v lastn nq (F (full_state M (nth s Ps []) (Tm m)) (state_at (nth s Us []) (Tm m))) /\
      e_compat (nth m errs e0) = repeat (repeat 0 nq) (M - 1).
Proof.
  intros HM LP (L & _ & HS).
  destruct (dynamic_errors_rows M (fun d e => forall s tau, (s + 1 < length K)%nat -> motion_sample M Ps Us s tau d ->
      e_dyn e = rate_n_at M (nth s Ps []) tau -v lastn nq (F (full_state M (nth s Ps []) tau) (state_at (nth s Us []) tau)) /\
      e_compat e = repeat (repeat 0 nq) (M - 1))) as (rows' & errs & E & Le & HQ).
  { intros d Hd. apply (In_nth _ _ []) in Hd. destruct Hd as (m & Hm0 & Ed). assert (Hm : (m < n)%nat) by (rewrite <- L; exact Hm0). clear Hm0. destruct (HS m Hm) as (s & Hs & _ & _ & HD).
    replace (nth m rows []) with d in HD by (symmetry; exact Ed). destruct HD as (Sh & GX).
    assert (LX : length (full_state M (nth s Ps []) (Tm m)) = (M * nq)%nat) by (rewrite full_state_length; f_equal; now apply LP).
    eexists _, _. split; [exact (errors_row F mode M nq _ _ _ _ _ HM Sh GX LX HM')|].
    intros s' tau Hs' (Sh' & GX'). cbn [e_dyn e_compat].
    assert (Et : tau = Tm m). { destruct Sh as (A & _), Sh' as (A' & _). rewrite A in A'. congruence. }
    subst tau.
    assert (EB : forall j i, (j < M)%nat -> (j + i <= M)%nat -> rate_n_at (j + i) (nth s Ps []) (Tm m) = rate_n_at (j + i) (nth s' Ps []) (Tm m)).
    { intros j i Hj Hi. destruct Sh as (_ & _ & A & _), Sh' as (_ & _ & A' & _). specialize (A i j Hj Hi). rewrite (A' i j Hj Hi) in A. congruence. }
    assert (EU : state_at (nth s Us []) (Tm m) = state_at (nth s' Us []) (Tm m)).
    { destruct Sh as (_ & A & _), Sh' as (_ & A' & _). rewrite A in A'. congruence. }
    assert (EX : full_state M (nth s Ps []) (Tm m) = full_state M (nth s' Ps []) (Tm m)) by (rewrite GX in GX'; congruence).
    split.
    - rewrite (EB 0%nat M) by lia. rewrite EU. rewrite <- EX. cbn [Nat.add]. do 2 f_equal. f_equal.
      destruct (mode =? "q")%string; [|reflexivity]. reflexivity.
    - rewrite (map_ext_in _ (fun _ => repeat 0 nq)).
      + clear. generalize 0%nat at 1. induction (M - 1)%nat as [|k IH]; intros a; [reflexivity|]. cbn [seq map repeat]. now rewrite IH.
      + intros j Hj. cbn [Nat.add]. rewrite Nat.add_0_r, vsub_self, rate_n_length. now rewrite LP. }
  exists rows', errs. split; [exact E|]. split; [congruence|]. intros m e0 Hm. destruct (HS m Hm) as (s & Hs & B & C & D).
  exists s. split; [exact Hs|]. split; [exact B|]. split; [exact C|]. apply (HQ m e0 ltac:(lia) s (Tm m) Hs D).
Qed.

(** The same with polynomials of the whole state. *)
Theorem state_errors : (forall s, (s + 1 < length K)%nat -> length (nth s Ps []) = (2 * nq)%nat) ->
  sampled K n (state_sample nq Ps Us) Tm rows ->
  exists rows' errs, dynamic_errors_from_interp rows F mode 2 = Ok (rows', errs) /\ length errs = n /\
    forall m e0, (m < n)%nat -> exists s, (s + 1 < length K)%nat /\ vnth K s <= Tm m <= vnth K (s + 1) /\
      (Tm m = vnth K (s + 1) -> (s + 2 = length K)%nat) /\
      let x := state_at (nth s Ps []) (Tm m) in let u := state_at (nth s Us []) (Tm m) in
      let q_d := firstn nq (rate_at (nth s Ps []) (Tm m)) in
      e_dyn (nth m errs e0) = firstn nq (rate_n_at 2 (nth s Ps []) (Tm m)) -v
        lastn nq (F (if (mode =? "q")%string then firstn nq x ++ q_d else x) u) /\
      e_compat (nth m errs e0) = [q_d -v skipn nq x].
Proof.
  intros LP (L & _ & HS).
  assert (R1 : forall P t, rate_n_at 1 P t = rate_at P t) by reflexivity.
  assert (R0 : forall P t, rate_n_at 0 P t = state_at P t) by reflexivity.
  destruct (dynamic_errors_rows 2 (fun d e => forall s tau, (s + 1 < length K)%nat -> state_sample nq Ps Us s tau d ->
      let x := state_at (nth s Ps []) tau in let u := state_at (nth s Us []) tau in
      let q_d := firstn nq (rate_at (nth s Ps []) tau) in
      e_dyn e = firstn nq (rate_n_at 2 (nth s Ps []) tau) -v lastn nq (F (if (mode =? "q")%string then firstn nq x ++ q_d else x) u) /\
      e_compat e = [q_d -v skipn nq x])) as (rows' & errs & E & Le & HQ).
  { intros d Hd. apply (In_nth _ _ []) in Hd. destruct Hd as (m & Hm0 & Ed). assert (Hm : (m < n)%nat) by (rewrite <- L; exact Hm0). clear Hm0. destruct (HS m Hm) as (s & Hs & _ & _ & HD).
    replace (nth m rows []) with d in HD by (symmetry; exact Ed). destruct HD as (Sh & GX).
    assert (LX : length (state_at (nth s Ps []) (Tm m)) = (2 * nq)%nat) by (rewrite state_at_length; now apply LP).
    eexists _, _. split; [exact (errors_row F mode 2 nq _ _ _ _ _ ltac:(lia) Sh GX LX HM')|].
    intros s' tau Hs' (Sh' & GX'). cbn [e_dyn e_compat].
    assert (Et : tau = Tm m). { destruct Sh as (A & _), Sh' as (A' & _). rewrite A in A'. congruence. }
    subst tau.
    assert (EU : state_at (nth s Us []) (Tm m) = state_at (nth s' Us []) (Tm m)).
    { destruct Sh as (_ & A & _), Sh' as (_ & A' & _). rewrite A in A'. congruence. }
    assert (EX : state_at (nth s Ps []) (Tm m) = state_at (nth s' Ps []) (Tm m)) by (rewrite GX in GX'; congruence).
    assert (S0 : forall v : vec, slice (nq * 0) (nq * (0 + 1)) v = firstn nq v).
    { intros v. unfold slice. rewrite Nat.mul_0_r, Nat.add_0_l, Nat.mul_1_r, Nat.sub_0_r. reflexivity. }
    assert (EB : forall i, (i <= 2)%nat -> firstn nq (rate_n_at i (nth s Ps []) (Tm m)) = firstn nq (rate_n_at i (nth s' Ps []) (Tm m))).
    { intros i Hi. destruct Sh as (_ & _ & A & _), Sh' as (_ & _ & A' & _). specialize (A i 0%nat ltac:(lia) ltac:(lia)).
      rewrite (A' i 0%nat) in A by lia. rewrite !S0 in A. congruence. }
    assert (EB1 : firstn nq (rate_at (nth s Ps []) (Tm m)) = firstn nq (rate_at (nth s' Ps []) (Tm m))) by (rewrite <- !R1; apply EB; lia).
    rewrite !S0. cbn [seq flat_map map]. rewrite !S0, app_nil_r.
    split.
    - rewrite (EB 2%nat) by lia. rewrite EU, <- EX, R0, R1, EB1. reflexivity.
    - change (2 - 1)%nat with 1%nat. cbn [seq map Nat.add]. rewrite S0, R1, EB1. do 2 f_equal.
      + rewrite R0, EX. unfold slice. rewrite Nat.mul_1_r. rewrite firstn_all2; [reflexivity|].
        rewrite skipn_length, state_at_length, LP by exact Hs'. lia. }
  exists rows', errs. split; [exact E|]. split; [congruence|]. intros m e0 Hm. destruct (HS m Hm) as (s & Hs & B & C & D).
  exists s. split; [exact Hs|]. split; [exact B|]. split; [exact C|]. apply (HQ m e0 ltac:(lia) s (Tm m) Hs D).
Qed.
End Segments.
