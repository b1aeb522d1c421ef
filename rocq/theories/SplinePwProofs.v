(** The scheme "hs_scipy" of the piecewise interpolations (C94). *)
From Coq Require Import String.
From Coquelicot Require Import Coquelicot.
From Verif Require Import Prelude PreludeFacts Poly PolyFacts PolyInterp Mat MatFacts PwModel PwFacts
  PwInterpModel PwInterpSpec PwInterpProofs PsSpec SplineModel SplineSpec SplineProofs SplineBtProofs.
Open Scope R_scope.
Open Scope list_scope.

(** The times of the samples. *)
Definition sample_times (n : nat) (h : R) : vec := map (fun i => INR i * h) (seq 0 n).

Lemma vnth_samples n h i : (i < n)%nat -> vnth (sample_times n h) i = INR i * h.
Proof. intros Hi. unfold sample_times, vnth. rewrite (nth_map' _ _ _ 0%nat) by (now rewrite seq_length). now rewrite seq_nth. Qed.
Lemma samples_length n h : length (sample_times n h) = n.
Proof. unfold sample_times. now rewrite map_length, seq_length. Qed.
Lemma samples_incr n h : 0 < h -> increasing (sample_times n h).
Proof.
  intros Hh i j Hij. rewrite samples_length in Hij. rewrite !vnth_samples by lia.
  apply Rmult_lt_compat_r; [exact Hh|]. apply lt_INR. lia.
Qed.

Section Pw.
Context {P : Type}.
Variable F : vec -> vec -> P -> vec.
Variable p : P.
Variable u_other : string -> R -> Res vec.
Variables (X U D : list vec) (h : R) (m : nat).
Hypothesis Hh : 0 < h.
Hypothesis HL : (2 <= length X)%nat.
Hypothesis SX : shaped (length X) m X.
Hypothesis SD : shaped (length X) m D.
Hypothesis HU : length U = length X \/ length X = (length U + 1)%nat.
Hypothesis HD : forall i, (i < length X)%nat -> nth i D [] = F (nth i X []) (nth i (full_controls X U) []) p.

Lemma missing_scipy us sp : length (full_controls X U) = length X ->
  calculate_missing X (full_controls X U) h p (Some F) None "hs_scipy" us sp = Ok (D, sp).
Proof.
  intros LU. unfold calculate_missing.
  destruct (mapm _ (seq 0 (length X))) as [Xd|e] eqn:E.
  - apply mapm_ok in E. rewrite seq_length in E. destruct E as [L N]. cbn [rbind].
    assert (Xd = D) as ->; [|reflexivity].
    apply (nth_ext _ _ [] []); [rewrite (shaped_length _ _ _ SD); exact L|]. intros i Hi. rewrite L in Hi.
    specialize (N i 0%nat [] Hi). rewrite seq_nth, Nat.add_0_l in N by exact Hi.
    rewrite (pyget_nat X i []), (pyget_nat (full_controls X U) i []) in N by lia. cbn [rbind] in N.
    injection N as N. now rewrite HD.
  - exfalso. rewrite (mapm_total _ (fun i => F (nth i X []) (nth i (full_controls X U) []) p)) in E; [discriminate|].
    intros i Hi. apply in_seq in Hi. rewrite (pyget_nat X i []), (pyget_nat (full_controls X U) i []) by lia. reflexivity.
Qed.
Lemma full_length : length (full_controls X U) = length X.
Proof.
  unfold full_controls. destruct (Nat.eqb_spec (length X) (length U + 1)) as [E|E]; [rewrite app_length; simpl|]; lia.
Qed.
Lemma prepare_live ts : ts <> [] -> last ts 0 <= INR (length X - 1) * h ->
  prepare_interp X U h ts = Ok (full_controls X U, sample_times (length X) h).
Proof.
  intros Ht Hl. unfold prepare_interp. fold (sample_times (length X) h).
  assert (E : (if (length X =? length U + 1)%nat then extend_array U else Ok U) = Ok (full_controls X U)).
  { unfold full_controls, extend_array. destruct (Nat.eqb_spec (length X) (length U + 1)) as [E|E]; [|reflexivity].
    assert (U <> []) by (intros ->; simpl in *; lia).
    rewrite (pyget_last U []) by assumption. cbn [rbind]. now rewrite (last_nth_length U []) by assumption. }
  rewrite E. cbn [rbind]. rewrite full_length, Nat.eqb_refl. cbn [negb].
  rewrite (pyget_last ts 0) by exact Ht. cbn [rbind].
  rewrite (pyget_last (sample_times (length X) h) 0).
  2:{ intros C. apply (f_equal (@length R)) in C. rewrite samples_length in C. simpl in C. lia. }
  cbn [rbind]. rewrite samples_length.
  change (nth (length X - 1) (sample_times (length X) h) 0) with (vnth (sample_times (length X) h) (length X - 1)).
  rewrite vnth_samples by lia. rewrite (last_nth_length ts 0) in Hl by exact Ht.
  destruct (Rlt_dec _ _) as [C|C]; [exfalso; lra|reflexivity].
Qed.
Lemma lin_live ts : exists nU, mapm (np_interp_rows (sample_times (length X) h) (full_controls X U)) ts = Ok nU.
Proof.
  pose proof full_length as L. pose proof (samples_length (length X) h) as LS.
  destruct (sample_times (length X) h) as [|a T]; [simpl in LS; lia|].
  destruct (full_controls X U) as [|u V]; [simpl in L; lia|].
  unfold np_interp_rows. cbn [combine].
  induction ts as [|t ts [nU IH]]; [now exists []|]. cbn [mapm rbind]. rewrite IH. cbn [rbind]. eauto.
Qed.

(** The values and the first two derivatives. *)
Lemma scipy_scheme : let T := sample_times (length X) h in
  exists Ps C, hermite_cubics T X D Ps /\ follows_cubics T Ps C /\ smooth_through T X D m (C 0%nat) (C 1%nat) /\
    forall ts sp,
      (forall us nX nU sp', interpolated_array u_other scipy_hermite X U h ts p (Some F) None "hs_scipy" us sp = Ok (nX, nU, sp') ->
         nX = map (C 0%nat) ts) /\
      (forall k nX sp', (k = 1 \/ k = 2)%nat ->
         interpolated_array_derivative X U h ts p (Some F) None "hs_scipy" k sp = Ok (nX, sp') -> nX = map (C k) ts) /\
      (ts <> [] -> last ts 0 <= INR (length X - 1) * h ->
         (exists nX nU sp', interpolated_array u_other scipy_hermite X U h ts p (Some F) None "hs_scipy" "lin" sp = Ok (nX, nU, sp')) /\
         (forall k, exists nX sp', interpolated_array_derivative X U h ts p (Some F) None "hs_scipy" k sp = Ok (nX, sp'))).
Proof.
  intros T. destruct (hermite_curve T X D (length X) m HL (samples_length _ _) SX SD (samples_incr _ _ Hh)) as (s & Ps & HS & H1 & H2 & H3).
  exists Ps, (fun k t => sp_eval (Nat.iter k sp_derivative s) t). split; [exact H1|]. split; [exact H2|]. split; [exact H3|].
  intros ts sp. pose proof full_length as FL. split; [|split].
  - intros us nX nU sp'. unfold interpolated_array. change (mem "hs_scipy" supported_schemes) with true. cbn [negb].
    destruct (negb _); [discriminate|]. change (contains "j" "hs_scipy") with false. cbn [andb].
    destruct (contains "j" us && _); [discriminate|].
    change (contains "hsn" "hs_scipy" || contains "trapz_n" "hs_scipy") with false. cbn iota. cbn [rbind].
    destruct (prepare_interp X U h ts) as [[U' ot]|e] eqn:EP; cbn [rbind]; [|discriminate].
    apply prepare_ok in EP. destruct EP as (-> & _ & ->). rewrite missing_scipy by exact FL. cbn [rbind].
    destruct (interpolate_u _ _ _ _ _ _) as [nu|e]; cbn [rbind]; [|discriminate].
    change ("hs_scipy" =? "hs_scipy")%string with true. cbn iota. intros E. injection E as <- _ _.
    apply map_ext. intros t. unfold scipy_hermite. fold (sample_times (length X) h). fold T. now rewrite HS.
  - intros k nX sp' Hk. unfold interpolated_array_derivative. change (mem "hs_scipy" supported_schemes) with true. cbn [negb].
    destruct (prepare_interp X U h ts) as [[U' ot]|e] eqn:EP; cbn [rbind]; [|discriminate].
    apply prepare_ok in EP. destruct EP as (-> & _ & ->). rewrite missing_scipy by exact FL. cbn [rbind].
    change ("hs_scipy" =? "hs_scipy")%string with true. cbn iota. unfold spline_derivative.
    fold (sample_times (length X) h). fold T. rewrite HS. cbn [rbind].
    destruct Hk as [-> | ->]; cbn [Nat.eqb]; intros E; injection E as <- _; reflexivity.
  - intros Ht Hl. pose proof (prepare_live ts Ht Hl) as EP. split.
    + unfold interpolated_array. change (mem "hs_scipy" supported_schemes) with true. change (mem "lin" supported_u_schemes) with true.
      cbn [negb]. change (contains "j" "hs_scipy") with false. change (contains "j" "lin") with false. cbn [andb].
      change (contains "hsn" "hs_scipy" || contains "trapz_n" "hs_scipy") with false. cbn iota. cbn [rbind].
      rewrite EP. cbn [rbind]. rewrite missing_scipy by exact FL. cbn [rbind].
      unfold interpolate_u. change ("lin" =? "lin")%string with true. cbn iota.
      destruct (lin_live ts) as [nU EU]. rewrite EU. cbn [rbind]. change ("hs_scipy" =? "hs_scipy")%string with true. cbn iota. eauto.
    + intros k. unfold interpolated_array_derivative. change (mem "hs_scipy" supported_schemes) with true. cbn [negb].
      rewrite EP. cbn [rbind]. rewrite missing_scipy by exact FL. cbn [rbind].
      change ("hs_scipy" =? "hs_scipy")%string with true. cbn iota. unfold spline_derivative.
      fold T. rewrite HS. cbn [rbind]. eauto.
Qed.
End Pw.

(** Third derivatives are zeros whatever the cubics are. *)
Lemma scipy_third : let F := fun (_ u : vec) (_ : unit) => u in
  hermite_cubics [0; 1] [[0]; [1]] [[0]; [0]] [[[0; 0; 3; -2]]] /\
  rate_n_at 3 [[0; 0; 3; -2]] (1 / 2) = [-12] /\
  interpolated_array_derivative [[0]; [1]] [[0]; [0]] 1 [1 / 2] tt (Some F) None "hs_scipy" 3 None = Ok ([[0]], no_params).
Proof.
  intros F. split; [|split].
  - split; [reflexivity|]. intros i Hi. cbn [length] in Hi. assert (i = 0%nat) as -> by lia. cbn [nth].
    split; [repeat constructor|]. unfold state_at, rate_n_at, vnth, mrow. cbn [map nth Nat.add]. rewrite !Derive_n_peval.
    cbn. repeat split; f_equal; ring.
  - unfold rate_n_at. cbn [map]. rewrite Derive_n_peval. cbn. f_equal. ring.
  - unfold interpolated_array_derivative. change (mem "hs_scipy" supported_schemes) with true. cbn [negb].
    rewrite (prepare_live F tt [[0]; [1]] [[0]; [0]] [[0]; [0]] 1);
      [|lra|simpl; lia|left; reflexivity|intros i _; reflexivity|discriminate|cbn; lra]. cbn [rbind].
    change (full_controls [[0]; [1]] [[0]; [0]]) with [[0]; [0]].
    cbn [calculate_missing]. unfold calculate_missing. cbn [length seq mapm].
    rewrite (pyget_nat [[0];[1]] 0 []), (pyget_nat [[0];[1]] 1 []), (pyget_nat [[0];[0]] 0 []), (pyget_nat [[0];[0]] 1 []) by (simpl; lia).
    cbn [rbind nth]. change (contains "hs" "hs_scipy" && negb ("hs_scipy" =? "hs_scipy")%string) with false. cbn iota. cbn [rbind].
    change ("hs_scipy" =? "hs_scipy")%string with true. cbn iota. unfold spline_derivative. unfold F.
    change (length [[0]; [1]]) with 2%nat.
    rewrite (hermite_ok (sample_times 2 1) [[0];[1]] [[0];[0]] 2 1); [reflexivity|lia|reflexivity| | |apply samples_incr; lra];
    (split; [reflexivity|repeat constructor]).
Qed.
