(** Proofs for C95. *)
From Coq Require Import String FunctionalExtensionality.
From Verif Require Import Prelude PreludeFacts Mat MatFacts PwModel PwFacts PwSpec PwInterpModel PwInterpSpec PwInterpProofs PwLiveProofs
  AnalysisPwProofs AnalysisLiveProofs AnalysisPtLive UErrModel UErrSpec.
Open Scope R_scope.
Open Scope vec_scope.
Open Scope list_scope.

Lemma snap_eq h : h * snap = h / 100000000.
Proof. unfold snap. field. Qed.
Lemma step_of_times n h : 0 < h -> (2 <= n)%nat ->
  let old_t := map (fun i => INR i * h) (seq 0 n) in
  exists tl t0, pyget old_t (-1)%Z = Ok tl /\ pyget old_t 0%Z = Ok t0 /\ (tl - t0) / (INR (length old_t) - 1) = h.
Proof.
  intros Hh Hn old_t. exists (INR (n - 1) * h), (INR 0 * h).
  assert (L : length old_t = n) by (unfold old_t; now rewrite map_length, seq_length).
  assert (E : forall i, (i < n)%nat -> nth i old_t 0 = INR i * h).
  { intros i Hi. unfold old_t. rewrite (nth_indep _ 0 (INR 0 * h)) by (rewrite map_length, seq_length; lia).
    rewrite (map_nth (fun i => INR i * h)). now rewrite seq_nth. }
  split; [|split].
  - rewrite (pyget_last old_t 0) by (intros C; rewrite C in L; simpl in L; lia). rewrite L, E by lia. reflexivity.
  - change 0%Z with (Z.of_nat 0). rewrite (pyget_nat old_t 0 0) by lia. now rewrite E by lia.
  - rewrite L, minus_INR by lia. simpl (INR 0). simpl (INR 1). field.
    assert (INR 2 <= INR n) by (now apply le_INR). simpl in *. lra.
Qed.

(** The controls, at one time. *)
Section Point.
Variable u_other : string -> R -> Res vec.
Lemma u_on_sample U h t us sp i : 0 < h -> (i < length U)%nat -> on_sample h i t -> newpoint_u u_other U h t us sp = Ok (nth i U []).
Proof.
  intros Hh Hi Hab. pose proof snap_pos as S1. pose proof snap_small as S2. unfold on_sample in Hab. rewrite <- snap_eq in Hab.
  assert (N := newpoint_snap U U h t "trapz" no_params i Hh Hi Hab). revert N. unfold newpoint, newpoint_u.
  destruct (_ <? _)%Z eqn:E0; [discriminate|]. destruct (Rlt_dec _ _); [auto|]. destruct (Rlt_dec _ _); [auto|].
  exfalso. apply Rabs_def2 in Hab. rewrite INR_IZR_INZ in Hab.
  destruct (Rle_dec (IZR (Z.of_nat i) * h) t) as [L|L].
  - assert (En : seg_index t h = Z.of_nat i) by (apply seg_index_eq; nra). unfold seg_tau in *. rewrite En in *.
    apply n. rewrite Rabs_pos_eq; lra.
  - assert (En : seg_index t h = (Z.of_nat i - 1)%Z) by (apply seg_index_eq; [exact Hh|rewrite minus_IZR; nra]). unfold seg_tau in *. rewrite En, minus_IZR in *.
    apply n0. rewrite Rabs_left1; lra.
Qed.
Lemma u_inside U h t us sp i : 0 < h -> (i + 1 < length U)%nat -> inside h i t -> In us ["min_err"; "pinv_dyn"]%string ->
  newpoint_u u_other U h t us sp = u_other us t.
Proof.
  intros Hh Hi Ht Hus. pose proof snap_pos as S1. pose proof snap_small as S2. unfold inside in Ht. rewrite <- snap_eq in Ht.
  rewrite INR_IZR_INZ in Ht. unfold newpoint_u.
  assert (En : seg_index t h = Z.of_nat i) by (apply seg_index_eq; nra).
  unfold seg_tau. rewrite En.
  destruct (Z.ltb_spec (Z.of_nat (length U)) (Z.of_nat i + 1)); [lia|].
  destruct (Rlt_dec _ _) as [Y|_].
  { rewrite Rabs_pos_eq in Y; nra. }
  destruct (Rlt_dec _ _) as [Y|_].
  { rewrite Rabs_left1 in Y; nra. }
  replace (Z.of_nat i + 1)%Z with (Z.of_nat (i + 1)) by lia.
  rewrite (pyget_nat U i []), (pyget_nat U (i + 1) []) by lia. cbn [rbind].
  destruct Hus as [<-|[<-|[]]]; reflexivity.
Qed.
End Point.
Lemma inside_index h i t : 0 < h -> inside h i t -> seg_index t h = Z.of_nat i /\ seg_tau t h = t - INR i * h.
Proof.
  intros Hh Ht. unfold inside in Ht. rewrite INR_IZR_INZ in *.
  assert (En : seg_index t h = Z.of_nat i) by (apply seg_index_eq; nra). split; [exact En|]. unfold seg_tau. now rewrite En.
Qed.

Section Err.
Context {P : Type}.
Variable minimize : (vec -> R) -> vec -> vec.
Variable hermite : list R -> list vec -> list vec -> R -> vec.
Variable F : vec -> vec -> P -> vec.
Variable p : P.
Variable n : nat.
Hypothesis HF : forall x u, length x = (2 * n)%nat -> length (F x u p) = (2 * n)%nat.

Lemma step_is_unexplained x x' : length x = (2 * n)%nat -> length x' = (2 * n)%nat ->
  (fun w => u_min_err_opti_step w x x' F p) = unexplained n F p x x'.
Proof.
  intros Hx Hx'. apply functional_extensionality. intros w. unfold u_min_err_opti_step, unexplained.
  replace (length x / 2)%nat with n by (rewrite Hx, Nat.mul_comm, Nat.div_mul by lia; reflexivity). f_equal.
  assert (LF := HF x w Hx).
  apply (nth_ext _ _ 0 0).
  - rewrite !map_length, seq_length, vsub_length, !skipn_length. lia.
  - intros j Hj. rewrite map_length, vsub_length, !skipn_length in Hj.
    rewrite (nth_indep _ 0 (Rabs 0)) by (rewrite map_length, vsub_length, !skipn_length; lia).
    rewrite map_nth. rewrite (nth_map' _ _ _ 0%nat) by (rewrite seq_length; lia).
    rewrite seq_nth by lia. cbn [Nat.add]. f_equal.
    change (nth j (skipn n (F x w p) -v skipn n x') 0) with (vnth (skipn n (F x w p) -v skipn n x') j).
    rewrite vnth_vsub by (rewrite ?skipn_length; lia). unfold vnth. now rewrite !nth_skipn'.
Qed.
Lemma line_eq u u' xi : xi *v u' +v (1 - xi) *v u = line_control u u' xi.
Proof.
  unfold line_control, vadd, vscale. revert u'. induction u as [|a u IH]; intros [|b u']; cbn [map map2]; try reflexivity.
  f_equal; [ring|apply IH].
Qed.

Variables (X U : list vec) (h : R) (Xd : option (list vec)) (scheme : string) (sp : option sparams).
Hypothesis Hh : 0 < h.
Hypothesis HL : (2 <= length X)%nat.
Hypothesis Hsci : scheme <> "hs_scipy"%string.

(** What is known of a call. *)
Lemma call us pinv ts nX nU sp' nX' sp'' : In us ["min_err"; "pinv_dyn"]%string ->
  interpolated_array_u minimize hermite X U h ts p (Some F) Xd scheme us sp pinv = Ok (nX, nU, sp') ->
  interpolated_array_derivative X U h ts p (Some F) Xd scheme 1 sp = Ok (nX', sp'') ->
  exists xd sp1, calculate_missing X (full_controls X U) h p (Some F) Xd scheme us (match sp with None => no_params | Some d => d end) = Ok (xd, sp1) /\
  length (full_controls X U) = length X /\ length nX = length ts /\ length nU = length ts /\ length nX' = length ts /\
  forall k, (k < length ts)%nat -> let t := nth k ts 0 in
    newpoint X xd h t scheme sp1 = Ok (nth k nX []) /\ newpoint_der X xd h t scheme 1 sp1 = Ok (nth k nX' []) /\
    newpoint_u (explaining_u minimize X xd (full_controls X U) h p (Some F) pinv scheme sp1) (full_controls X U) h t us sp1 = Ok (nth k nU []).
Proof.
  intros Hus. unfold interpolated_array_u, interpolated_array_derivative.
  destruct (mem scheme supported_schemes); cbn [negb]; [|discriminate].
  destruct (mem us supported_u_schemes); cbn [negb]; [|discriminate].
  destruct (contains "j" scheme && _); [discriminate|]. destruct (contains "j" us && _); [discriminate|].
  destruct (if contains "hsn" scheme || contains "trapz_n" scheme then _ else _); cbn [rbind]; [|discriminate].
  destruct (prepare_interp X U h ts) as [[U' ot]|e] eqn:EP; cbn [rbind]; [|discriminate].
  apply prepare_ok in EP. destruct EP as (-> & LU & ->).
  set (sp0 := match sp with None => no_params | Some d => d end).
  destruct (calculate_missing X (full_controls X U) h p (Some F) Xd scheme us sp0) as [[xd sp1]|e] eqn:EM; cbn [rbind]; [|discriminate].
  destruct (missing_twice F p X _ h Xd scheme us sp0 xd sp1 EM) as [EN _]. rewrite EN. cbn [rbind].
  destruct (step_of_times (length X) h Hh HL) as (tl & t0 & E1 & E2 & E3). rewrite E1. cbn [rbind]. rewrite E2. cbn [rbind]. rewrite E3.
  unfold interpolate_u. assert (El : (us =? "lin")%string = false) by (destruct Hus as [<-|[<-|[]]]; reflexivity). rewrite El.
  rewrite E1. cbn [rbind]. rewrite E2. cbn [rbind]. rewrite E3.
  apply String.eqb_neq in Hsci. rewrite Hsci.
  destruct (mapm _ ts) as [nu|e] eqn:EU; cbn [rbind]; [|discriminate].
  destruct (mapm (fun t => newpoint X xd h t scheme sp1) ts) as [nx|e] eqn:EX; cbn [rbind]; [|discriminate].
  intros H. injection H as <- <- _.
  destruct (mapm (fun t => newpoint_der X xd h t scheme 1 sp1) ts) as [nx'|e] eqn:ED; cbn [rbind]; [|discriminate].
  intros H. injection H as <- _.
  apply mapm_ok in EU. apply mapm_ok in EX. apply mapm_ok in ED.
  destruct EU as [LU' NU], EX as [LX NX], ED as [LD ND].
  exists xd, sp1. split; [reflexivity|]. split; [exact LU|]. split; [exact LX|]. split; [exact LU'|]. split; [exact LD|].
  intros k Hk. split; [now apply NX|]. split; [now apply ND|]. now apply NU.
Qed.

Lemma samples_kept us pinv ts nX nU sp' nX' sp'' : In us ["min_err"; "pinv_dyn"]%string ->
  interpolated_array_u minimize hermite X U h ts p (Some F) Xd scheme us sp pinv = Ok (nX, nU, sp') ->
  interpolated_array_derivative X U h ts p (Some F) Xd scheme 1 sp = Ok (nX', sp'') ->
  length nU = length ts /\ forall k i, (k < length ts)%nat -> (i < length X)%nat -> on_sample h i (nth k ts 0) ->
    nth k nU [] = nth i (full_controls X U) [].
Proof.
  intros Hus H1 H2. destruct (call us pinv ts nX nU sp' nX' sp'' Hus H1 H2) as (xd & sp1 & _ & LU & _ & L2 & _ & N).
  split; [exact L2|]. intros k i Hk Hi Hon. destruct (N k Hk) as (_ & _ & E).
  rewrite (u_on_sample _ _ _ _ _ _ i Hh) in E; [injection E; auto|lia|exact Hon].
Qed.

Lemma min_err_value pinv ts nX nU sp' nX' sp'' :
  interpolated_array_u minimize hermite X U h ts p (Some F) Xd scheme "min_err" sp pinv = Ok (nX, nU, sp') ->
  interpolated_array_derivative X U h ts p (Some F) Xd scheme 1 sp = Ok (nX', sp'') ->
  Forall (fun x => length x = (2 * n)%nat) nX -> Forall (fun x => length x = (2 * n)%nat) nX' ->
  forall k i, (k < length ts)%nat -> (i + 1 < length X)%nat -> inside h i (nth k ts 0) ->
    nth k nU [] = minimize (unexplained n F p (nth k nX []) (nth k nX' []))
      (line_control (nth i (full_controls X U) []) (nth (i + 1) (full_controls X U) []) ((nth k ts 0 - INR i * h) / h)).
Proof.
  intros H1 H2 F1 F2 k i Hk Hi Hin.
  destruct (call "min_err" pinv ts nX nU sp' nX' sp'' (or_introl eq_refl) H1 H2) as (xd & sp1 & _ & LU & L1 & L2 & L3 & N).
  destruct (N k Hk) as (EX & ED & EU). rewrite (u_inside _ _ _ _ _ _ i Hh) in EU; [|lia|exact Hin|now left].
  destruct (inside_index h i _ Hh Hin) as [I1 I2]. unfold explaining_u in EU. rewrite I1, I2 in EU.
  replace (Z.of_nat i + 1)%Z with (Z.of_nat (i + 1)) in EU by lia.
  rewrite (pyget_nat _ i []), (pyget_nat _ (i + 1) []) in EU by lia. cbn [rbind] in EU.
  change ("min_err" =? "min_err")%string with true in EU. cbn iota in EU. cbn [getkey rbind] in EU.
  rewrite EX in EU. cbn [rbind] in EU. rewrite ED in EU. cbn [rbind] in EU. injection EU as <-.
  rewrite Forall_forall in F1, F2. rewrite <- step_is_unexplained by (first [apply F1, nth_In; lia|apply F2, nth_In; lia]).
  now rewrite line_eq.
Qed.
Lemma pinv_value pinv ts nX nU sp' nX' sp'' :
  interpolated_array_u minimize hermite X U h ts p (Some F) Xd scheme "pinv_dyn" sp (Some pinv) = Ok (nX, nU, sp') ->
  interpolated_array_derivative X U h ts p (Some F) Xd scheme 1 sp = Ok (nX', sp'') ->
  Forall (fun x => length x = (2 * n)%nat) nX -> Forall (fun x => length x = (2 * n)%nat) nX' ->
  forall k i, (k < length ts)%nat -> (i + 1 < length X)%nat -> inside h i (nth k ts 0) ->
    nth k nU [] = pinv (firstn n (nth k nX [])) (skipn n (nth k nX [])) (skipn n (nth k nX' [])) p.
Proof.
  intros H1 H2 F1 F2 k i Hk Hi Hin.
  destruct (call "pinv_dyn" _ ts nX nU sp' nX' sp'' (or_intror (or_introl eq_refl)) H1 H2) as (xd & sp1 & _ & LU & L1 & L2 & L3 & N).
  destruct (N k Hk) as (EX & ED & EU). rewrite (u_inside _ _ _ _ _ _ i Hh) in EU; [|lia|exact Hin|right; now left].
  destruct (inside_index h i _ Hh Hin) as [I1 I2]. unfold explaining_u in EU. rewrite I1, I2 in EU.
  replace (Z.of_nat i + 1)%Z with (Z.of_nat (i + 1)) in EU by lia.
  rewrite (pyget_nat _ i []), (pyget_nat _ (i + 1) []) in EU by lia. cbn [rbind] in EU.
  change ("pinv_dyn" =? "min_err")%string with false in EU. cbn iota in EU.
  rewrite EX in EU. cbn [rbind] in EU. rewrite ED in EU. cbn [rbind getkey] in EU.
  rewrite Forall_forall in F1. rewrite F1 in EU by (apply nth_In; lia).
  replace (2 * n / 2)%nat with n in EU by (rewrite Nat.mul_comm, Nat.div_mul by lia; reflexivity). now injection EU as <-.
Qed.
Lemma unexplained_zero x x' u : length x = (2 * n)%nat -> length x' = (2 * n)%nat -> skipn n (F x u p) = skipn n x' -> unexplained n F p x x' u = 0.
Proof.
  intros Hx Hx' E. rewrite <- step_is_unexplained by assumption. unfold u_min_err_opti_step.
  replace (length x / 2)%nat with n by (rewrite Hx, Nat.mul_comm, Nat.div_mul by lia; reflexivity). rewrite E.
  assert (Z : forall v, vsum (map Rabs (v -v v)) = 0).
  { induction v as [|a v IH]; [reflexivity|]. unfold vsub in *. cbn [map2 map vsum fold_right]. replace (a - a) with 0 by ring. rewrite Rabs_R0.
    change (fold_right Rplus 0 (map Rabs (map2 Rminus v v))) with (vsum (map Rabs (map2 Rminus v v))). rewrite IH. ring. }
  apply Z.
Qed.
Lemma min_err_descends' pinv ts nX nU sp' nX' sp'' : descends minimize ->
  interpolated_array_u minimize hermite X U h ts p (Some F) Xd scheme "min_err" sp pinv = Ok (nX, nU, sp') ->
  interpolated_array_derivative X U h ts p (Some F) Xd scheme 1 sp = Ok (nX', sp'') ->
  Forall (fun x => length x = (2 * n)%nat) nX -> Forall (fun x => length x = (2 * n)%nat) nX' ->
  forall k i, (k < length ts)%nat -> (i + 1 < length X)%nat -> inside h i (nth k ts 0) ->
    unexplained n F p (nth k nX []) (nth k nX' []) (nth k nU []) <=
    unexplained n F p (nth k nX []) (nth k nX' [])
      (line_control (nth i (full_controls X U) []) (nth (i + 1) (full_controls X U) []) ((nth k ts 0 - INR i * h) / h)).
Proof.
  intros D H1 H2 F1 F2 k i Hk Hi Hin. rewrite (min_err_value pinv ts nX nU sp' nX' sp'' H1 H2 F1 F2 k i Hk Hi Hin). apply D.
Qed.
Lemma pinv_explains' pinv ts nX nU sp' nX' sp'' :
  (forall q v a, length q = n -> length v = n -> length a = n -> skipn n (F (q ++ v) (pinv q v a p) p) = a) ->
  interpolated_array_u minimize hermite X U h ts p (Some F) Xd scheme "pinv_dyn" sp (Some pinv) = Ok (nX, nU, sp') ->
  interpolated_array_derivative X U h ts p (Some F) Xd scheme 1 sp = Ok (nX', sp'') ->
  Forall (fun x => length x = (2 * n)%nat) nX -> Forall (fun x => length x = (2 * n)%nat) nX' ->
  forall k i, (k < length ts)%nat -> (i + 1 < length X)%nat -> inside h i (nth k ts 0) ->
    unexplained n F p (nth k nX []) (nth k nX' []) (nth k nU []) = 0.
Proof.
  intros D H1 H2 F1 F2 k i Hk Hi Hin. rewrite (pinv_value pinv ts nX nU sp' nX' sp'' H1 H2 F1 F2 k i Hk Hi Hin).
  destruct (call "pinv_dyn" _ ts nX nU sp' nX' sp'' (or_intror (or_introl eq_refl)) H1 H2) as (_ & _ & _ & _ & L1 & _ & L3 & _).
  rewrite Forall_forall in F1, F2.
  assert (LX : length (nth k nX []) = (2 * n)%nat) by (apply F1, nth_In; lia).
  assert (LX' : length (nth k nX' []) = (2 * n)%nat) by (apply F2, nth_In; lia).
  apply unexplained_zero; [exact LX|exact LX'|]. rewrite <- (firstn_skipn n (nth k nX [])) at 1. apply D; rewrite ?firstn_length, ?skipn_length; lia.
Qed.
End Err.
Definition min_err_descends {P} minimize hermite (F : vec -> vec -> P -> vec) p n D HF X U h Xd scheme sp Hh HL Hs pinv ts nX nU sp' nX' sp'' :=
  min_err_descends' minimize hermite F p n HF X U h Xd scheme sp Hh HL Hs pinv ts nX nU sp' nX' sp'' D.
Definition pinv_explains {P} minimize hermite (F : vec -> vec -> P -> vec) p n HF pinv D X U h Xd scheme sp Hh HL Hs ts nX nU sp' nX' sp'' :=
  pinv_explains' minimize hermite F p n HF X U h Xd scheme sp Hh HL Hs pinv ts nX nU sp' nX' sp'' D.

Lemma pyget_same {A B} (l : list A) (m : list B) k a : length m = length l -> pyget l k = Ok a -> exists b, pyget m k = Ok b.
Proof.
  intros L. unfold pyget. rewrite L. destruct (_ || _)%bool; [discriminate|].
  destruct (nth_error l _) eqn:E; [|discriminate]. intros _.
  assert (H : nth_error l (Z.to_nat (if (k <? 0)%Z then (Z.of_nat (length l) + k)%Z else k)) <> None) by (rewrite E; discriminate).
  apply nth_error_Some in H. rewrite <- L in H at 2. apply nth_error_Some in H. destruct (nth_error m _); [eauto|congruence].
Qed.

Section Returns.
Context {P : Type}.
Variable minimize : (vec -> R) -> vec -> vec.
Variable hermite : list R -> list vec -> list vec -> R -> vec.
Variable F : vec -> vec -> P -> vec.
Variable p : P.
(** Every time inside the horizon is answered. *)
Lemma explaining_returns scheme M h X U ts sp us pinv : In us ["min_err"; "pinv_dyn"]%string ->
  scheme_blocks scheme (sp_order sp) = Some M -> 0 < h -> (2 <= length X)%nat ->
  (length U = length X \/ length X = (length U + 1)%nat) ->
  sp_x_dot_c sp = None -> sp_x_c sp = None ->
  (forall c, sp_u_c sp = Some c -> (length X <= length c + 1)%nat) ->
  ts <> [] -> (forall t, In t ts -> 0 <= t <= (INR (length X) - 1) * h) ->
  exists nX nU sp' nX' sp'', interpolated_array_u minimize hermite X U h ts p (Some F) None scheme us (Some sp) (Some pinv) = Ok (nX, nU, sp') /\
    interpolated_array_derivative X U h ts p (Some F) None scheme 1 (Some sp) = Ok (nX', sp'').
Proof.
  intros Hus Hb Hh HL HU H1 H2 Hc Hne Hts.
  destruct (driver_succeeds F p (fun _ _ => Err KeyError) hermite scheme M h X U ts sp Hb Hh HL HU H1 H2 Hc Hne Hts) as [[[nX0 nU0] sp0'] E0].
  assert (D1 : dmax_of scheme 1%nat) by (unfold dmax_of; destruct (contains "j" scheme); auto).
  destruct (derivative_succeeds F p _ hermite scheme "lin" M h X U ts sp _ 1%nat Hb Hh HL H1 H2 (le_n 1) D1 Hts E0) as [[nX' sp''] ED].
  assert (Hsci := scheme_not_scipy _ _ _ Hb). apply String.eqb_neq in Hsci.
  rewrite ED. revert ED E0. unfold interpolated_array_derivative, interpolated_array, interpolated_array_u.
  destruct (mem scheme supported_schemes); cbn [negb]; [|discriminate].
  change (mem "lin" supported_u_schemes) with true. cbn [negb].
  assert (E1 : mem us supported_u_schemes = true) by (destruct Hus as [<-|[<-|[]]]; reflexivity). rewrite E1. cbn [negb].
  assert (E2 : (us =? "parab")%string = false) by (destruct Hus as [<-|[<-|[]]]; reflexivity). rewrite E2, andb_false_r.
  change ("lin" =? "parab")%string with false. rewrite andb_false_r.
  assert (E3 : contains "j" us = false) by (destruct Hus as [<-|[<-|[]]]; reflexivity). rewrite E3. change (contains "j" "lin") with false. cbn [andb].
  intros ED. destruct (if contains "hsn" scheme || contains "trapz_n" scheme then _ else _); cbn [rbind] in *; [|discriminate]. revert ED.
  destruct (prepare_interp X U h ts) as [[U' ot]|e] eqn:EP; cbn [rbind]; [|discriminate].
  apply prepare_ok in EP. destruct EP as (-> & LU & ->).
  assert (EQ : calculate_missing X (full_controls X U) h p (Some F) None scheme us sp = calculate_missing X (full_controls X U) h p (Some F) None scheme "lin" sp)
    by (destruct Hus as [<-|[<-|[]]]; reflexivity). rewrite EQ.
  destruct (calculate_missing X (full_controls X U) h p (Some F) None scheme "lin" sp) as [[xd sp1]|e] eqn:EM; cbn [rbind].
  2:{ intros _ C. discriminate C. }
  destruct (missing_twice F p X _ h None scheme "lin" sp xd sp1 EM) as [-> _]. cbn [rbind]. rewrite Hsci.
  destruct (mapm (fun t => newpoint_der X xd h t scheme 1 sp1) ts) as [nd|e] eqn:EN; cbn [rbind]; [|discriminate]. intros _.
  destruct (interpolate_u _ _ _ _ "lin" _); cbn [rbind]; [|discriminate].
  destruct (mapm (fun t => newpoint X xd h t scheme sp1) ts) as [nx|e] eqn:EX; cbn [rbind]; [|discriminate]. intros _.
  destruct (step_of_times (length X) h Hh HL) as (tl & t0 & T1 & T2 & T3). rewrite T1. cbn [rbind]. rewrite T2. cbn [rbind]. rewrite T3.
  unfold interpolate_u. assert (El : (us =? "lin")%string = false) by (destruct Hus as [<-|[<-|[]]]; reflexivity). rewrite El.
  rewrite T1. cbn [rbind]. rewrite T2. cbn [rbind]. rewrite T3.
  match goal with |- context [mapm ?f ts] => destruct (mapm_succeeds f ts) as [nU EU] end.
  2:{ rewrite EU. cbn [rbind]. eauto 10. }
  intros t Ht. apply mapm_ok in EN. apply mapm_ok in EX. destruct EN as [_ ND], EX as [_ NX].
  apply In_nth with (d := 0) in Ht. destruct Ht as (k & Hk & Et). specialize (ND k 0 [] Hk). specialize (NX k 0 [] Hk). rewrite Et in ND, NX.
  unfold newpoint_u. rewrite LU. unfold explaining_u. rewrite NX, ND. cbn [rbind getkey].
  unfold newpoint in NX. destruct (_ <? _)%Z; [discriminate|].
  destruct (Rlt_dec _ _). { revert NX. now apply pyget_same. }
  destruct (Rlt_dec _ _). { revert NX. now apply pyget_same. }
  destruct (pyget X (seg_index t h)) as [a|] eqn:EA; cbn [rbind] in NX; [|discriminate].
  destruct (pyget X (seg_index t h + 1)) as [b|] eqn:EB; cbn [rbind] in NX; [|discriminate].
  destruct (pyget_same X (full_controls X U) _ a LU EA) as [w ->]. destruct (pyget_same X (full_controls X U) _ b LU EB) as [w_n ->]. cbn [rbind].
  destruct Hus as [<-|[<-|[]]]; cbn [String.eqb Ascii.eqb Bool.eqb mem existsb orb]; eauto.
Qed.

(** With the default scheme there is no answer between samples. *)
Lemma scipy_never h X U ts Xd us sp pinv r k i : 0 < h -> (2 <= length X)%nat -> In us ["min_err"; "pinv_dyn"]%string ->
  (k < length ts)%nat -> (i + 1 < length X)%nat -> inside h i (nth k ts 0) ->
  interpolated_array_u minimize hermite X U h ts p (Some F) Xd "hs_scipy" us sp pinv = Ok r -> False.
Proof.
  intros Hh HL Hus Hk Hi Hin. unfold interpolated_array_u.
  change (mem "hs_scipy" supported_schemes) with true. cbn [negb].
  destruct (mem us supported_u_schemes); cbn [negb]; [|discriminate].
  destruct (contains "j" "hs_scipy" && _); [discriminate|]. destruct (contains "j" us && _); [discriminate|].
  destruct (if contains "hsn" _ || contains "trapz_n" _ then _ else _); cbn [rbind]; [|discriminate].
  destruct (prepare_interp X U h ts) as [[U' ot]|e] eqn:EP; cbn [rbind]; [|discriminate].
  apply prepare_ok in EP. destruct EP as (-> & LU & ->).
  destruct (calculate_missing _ _ _ _ _ _ _ _ _) as [[xd sp1]|e]; cbn [rbind]; [|discriminate].
  destruct (step_of_times (length X) h Hh HL) as (tl & t0 & E1 & E2 & E3). rewrite E1. cbn [rbind]. rewrite E2. cbn [rbind]. rewrite E3.
  unfold interpolate_u. assert (El : (us =? "lin")%string = false) by (destruct Hus as [<-|[<-|[]]]; reflexivity). rewrite El.
  rewrite E1. cbn [rbind]. rewrite E2. cbn [rbind]. rewrite E3.
  match goal with |- (do _ <- ?e; _) = _ -> _ => destruct e as [nu|e'] eqn:EU; cbn [rbind]; [|discriminate] end. intros _.
  apply mapm_ok in EU. destruct EU as [_ NU]. specialize (NU k 0 [] Hk).
  rewrite (u_inside _ _ _ _ _ _ i Hh) in NU; [|lia|exact Hin|exact Hus].
  assert (NE : forall y, newpoint X xd h (nth k ts 0) "hs_scipy" sp1 = Ok y -> False).
  { intros y. unfold newpoint. destruct (inside_index h i _ Hh Hin) as [I1 I2]. rewrite I1, I2. unfold inside in Hin. rewrite <- snap_eq in Hin.
    pose proof snap_pos as S1. destruct (_ <? _)%Z; [discriminate|].
    destruct (Rlt_dec _ _) as [Y|_]. { rewrite Rabs_pos_eq in Y; nra. }
    destruct (Rlt_dec _ _) as [Y|_]. { rewrite Rabs_left1 in Y; nra. }
    destruct (pyget X (Z.of_nat i)); cbn [rbind]; [|discriminate]. destruct (pyget X (Z.of_nat i + 1)); cbn [rbind]; [|discriminate].
    destruct (pyget xd (Z.of_nat i)); cbn [rbind]; [|discriminate]. destruct (pyget xd (Z.of_nat i + 1)); cbn [rbind]; [|discriminate].
    unfold interp_scheme. simpl. discriminate. }
  unfold explaining_u in NU.
  destruct (pyget (full_controls X U) (seg_index (nth k ts 0) h)) as [w|]; cbn [rbind] in NU; [|discriminate].
  destruct (pyget (full_controls X U) _) as [w0|]; cbn [rbind] in NU; [|discriminate].
  destruct (us =? "min_err")%string; cbn [getkey rbind] in NU;
  (destruct (newpoint X xd h (nth k ts 0) "hs_scipy" sp1) as [y|]; cbn [rbind] in NU; [exact (NE y eq_refl)|discriminate]).
Qed.
End Returns.

(** ** Examples *)
Definition push : vec -> vec -> unit -> vec := fun x u _ => [vnth x 1; vnth u 0].
Definition push_inv : vec -> vec -> vec -> unit -> vec := fun q v a _ => a.
(** A minimiser that also tries the control [1/2]. *)
Definition two_tries (f : vec -> R) (u0 : vec) : vec := if Rle_dec (f u0) (f [1 / 2]) then u0 else [1 / 2].
Lemma two_descends : descends two_tries.
Proof. intros f u0. unfold two_tries. destruct (Rle_dec _ _); lra. Qed.

(** At a sample the sample is the answer, whatever it explains. *)
Lemma push_wide x u : length x = (2 * 1)%nat -> length (push x u tt) = (2 * 1)%nat.
Proof. reflexivity. Qed.
Lemma sample_unexplained minimize hermite pinv :
  interpolated_array_u minimize hermite [[0; 0]; [0; 0]] [[0]; [0]] 1 [0] tt (Some push) (Some [[0; 1]; [0; 1]]) "trapz_mod" "min_err" None pinv
    = Ok ([[0; 0]], [[0]], no_params) /\
  interpolated_array_derivative [[0; 0]; [0; 0]] [[0]; [0]] 1 [0] tt (Some push) (Some [[0; 1]; [0; 1]]) "trapz_mod" 1 None = Ok ([[0; 1]], no_params) /\
  unexplained 1 push tt [0; 0] [0; 1] [0] = 1 /\ unexplained 1 push tt [0; 0] [0; 1] [1] = 0.
Proof.
  assert (S0 : seg_index 0 1 = 0%Z) by (apply seg_index_eq; simpl; lra).
  assert (T0 : seg_tau 0 1 = 0) by (unfold seg_tau; rewrite S0; simpl; lra).
  assert (P0 : prepare_interp [[0; 0]; [0; 0]] [[0]; [0]] 1 [0] = Ok ([[0]; [0]], [INR 0 * 1; INR 1 * 1])).
  { unfold prepare_interp. cbn [length Nat.eqb Nat.add rbind negb seq map].
    rewrite (pyget_last [0] 0) by discriminate. rewrite (pyget_last [INR 0 * 1; INR 1 * 1] 0) by discriminate. cbn [rbind length Nat.sub nth].
    destruct (Rlt_dec _ _) as [C|C]; [exfalso; simpl in C; lra|reflexivity]. }
  pose proof snap_pos as SP.
  split; [|split; [|split]].
  - unfold interpolated_array_u. change (mem "trapz_mod" supported_schemes) with true. change (mem "min_err" supported_u_schemes) with true. cbn [negb].
    change (contains "j" "trapz_mod") with false. change (contains "j" "min_err") with false. cbn [andb].
    change (contains "hsn" "trapz_mod" || contains "trapz_n" "trapz_mod")%bool with false. cbn iota. cbn [rbind].
    rewrite P0. cbn [rbind].
    change (calculate_missing [[0; 0]; [0; 0]] [[0]; [0]] 1 tt (Some push) (Some [[0; 1]; [0; 1]]) "trapz_mod" "min_err" no_params)
      with (@Ok (list vec * sparams) ([[0; 1]; [0; 1]], no_params)). cbn [rbind].
    destruct (step_of_times 2 1) as (tl & t0 & E1 & E2 & E3); [lra|lia|]. cbn [seq map] in E1, E2, E3. rewrite E1. cbn [rbind]. rewrite E2. cbn [rbind]. rewrite E3.
    unfold interpolate_u. change ("min_err" =? "lin")%string with false. cbn iota. rewrite E1. cbn [rbind]. rewrite E2. cbn [rbind]. rewrite E3.
    change ("trapz_mod" =? "hs_scipy")%string with false. cbn iota. cbn [mapm].
    rewrite (u_on_sample _ [[0]; [0]] 1 0 "min_err" no_params 0); [|lra|simpl; lia|unfold on_sample; simpl; rewrite Rmult_0_l, Rminus_0_r, Rabs_R0; lra].
    cbn [rbind nth].
    rewrite (newpoint_snap _ _ 1 0 "trapz_mod" no_params 0); [reflexivity|lra|simpl; lia|simpl; rewrite Rmult_0_l, Rminus_0_r, Rabs_R0; lra].
  - unfold interpolated_array_derivative. change (mem "trapz_mod" supported_schemes) with true. cbn [negb]. rewrite P0. cbn [rbind].
    change (calculate_missing [[0; 0]; [0; 0]] [[0]; [0]] 1 tt (Some push) (Some [[0; 1]; [0; 1]]) "trapz_mod" "None" no_params)
      with (@Ok (list vec * sparams) ([[0; 1]; [0; 1]], no_params)). cbn [rbind].
    change ("trapz_mod" =? "hs_scipy")%string with false. cbn iota. cbn [mapm]. unfold newpoint_der.
    destruct (Rlt_dec _ _) as [C|C].
    { exfalso. simpl in C. pose proof snap_small. rewrite Rabs_left in C; lra. }
    rewrite S0, T0. change (Z.of_nat (length [[0; 0]; [0; 0]]) <=? 0 + 1)%Z with false. cbn iota. change (0 + 1)%Z with 1%Z.
    change (pyget [[0; 0]; [0; 0]] 0%Z) with (@Ok vec [0; 0]). change (pyget [[0; 0]; [0; 0]] 1%Z) with (@Ok vec [0; 0]).
    change (pyget [[0; 1]; [0; 1]] 0%Z) with (@Ok vec [0; 1]). change (pyget [[0; 1]; [0; 1]] 1%Z) with (@Ok vec [0; 1]). cbn [rbind].
    unfold interp_der_scheme. cbn [String.eqb Ascii.eqb Bool.eqb rbind]. do 3 f_equal. unfold tz_interp. cbn.
    do 4 (try change (Pos.to_nat 1) with 1%nat; try change (Pos.to_nat 3) with 3%nat; try change (Pos.to_nat 2) with 2%nat; cbn). repeat f_equal; field.
  - unfold unexplained, push, vnth, vsum. cbn [seq map fold_right nth Nat.add]. rewrite Rabs_left; lra.
  - unfold unexplained, push, vnth, vsum. cbn [seq map fold_right nth Nat.add]. replace (1 - 1) with 0 by ring. rewrite Rabs_R0. ring.
Qed.
Lemma push_case :
  descends two_tries /\ (forall x u, length x = (2 * 1)%nat -> length (push x u tt) = (2 * 1)%nat) /\
  (forall q v a, length q = 1%nat -> length v = 1%nat -> length a = 1%nat -> skipn 1 (push (q ++ v) (push_inv q v a tt) tt) = a) /\
  exists nX nU sp' nX' sp'', interpolated_array_u two_tries (fun _ _ _ _ => []) [[0; 0]; [0; 1]; [1; 2]] [[1]; [0]] 1 [1 / 2; 3 / 2] tt (Some push) None "trapz_mod" "min_err" (Some no_params) (Some push_inv) = Ok (nX, nU, sp') /\
    interpolated_array_derivative [[0; 0]; [0; 1]; [1; 2]] [[1]; [0]] 1 [1 / 2; 3 / 2] tt (Some push) None "trapz_mod" 1 (Some no_params) = Ok (nX', sp'') /\
    Forall (fun x => length x = (2 * 1)%nat) nX /\ Forall (fun x => length x = (2 * 1)%nat) nX' /\ inside 1 1 (3 / 2).
Proof.
  split; [exact two_descends|]. split; [exact push_wide|]. split.
  { intros q v [|a [|b l]] _ _ L; try discriminate. reflexivity. }
  set (X := [[0; 0]; [0; 1]; [1; 2]]). set (U := [[1]; [0]]). set (ts := [1 / 2; 3 / 2]).
  destruct (explaining_returns two_tries (fun _ _ _ _ => []) push tt "trapz_mod" 2 1 X U ts no_params "min_err" push_inv)
    as (nX & nU & sp' & nX' & sp'' & E1 & E2); [now left|reflexivity|lra|simpl; lia|right; reflexivity|reflexivity|reflexivity|discriminate|discriminate| |].
  { intros t [<-|[<-|[]]]; simpl; lra. }
  exists nX, nU, sp', nX', sp''. split; [exact E1|]. split; [exact E2|].
  destruct (call two_tries (fun _ _ _ _ => []) push tt X U 1 None "trapz_mod" (Some no_params) ltac:(lra) ltac:(simpl; lia) ltac:(discriminate)
     "min_err" (Some push_inv) ts nX nU sp' nX' sp'' (or_introl eq_refl) E1 E2) as (xd & sp1 & EM & LU & L1 & L2 & L3 & N).
  assert (WX : Forall (wide 1) X) by (repeat constructor).
  assert (WD : Forall (wide 1) xd).
  { revert EM. unfold calculate_missing. match goal with |- (do _ <- ?e; _) = _ -> _ => destruct e as [xd0|] eqn:EX; cbn [rbind]; [|discriminate] end.
    change (contains "hs" "trapz_mod" && negb ("trapz_mod" =? "hs_scipy")%string)%bool with false. cbn iota. intros E. injection E as <- _.
    revert EX. apply mapm_Forall. intros i b _. destruct (pyget X _) as [x|]; cbn [rbind]; [|discriminate].
    destruct (pyget _ _) as [u|]; cbn [rbind]; [|discriminate]. intros E. now injection E as <-. }
  assert (G1 : good 1 "trapz_mod" sp1).
  { revert EM. unfold calculate_missing. match goal with |- (do _ <- ?e; _) = _ -> _ => destruct e as [xd0|] eqn:EX; cbn [rbind]; [|discriminate] end.
    change (contains "hs" "trapz_mod" && negb ("trapz_mod" =? "hs_scipy")%string)%bool with false. cbn iota. intros E. injection E as _ <-.
    repeat split; cbn; auto; discriminate. }
  assert (G : forall l, length l = length ts -> (forall k, (k < length ts)%nat -> wide 1 (nth k l [])) -> Forall (fun x => length x = (2 * 1)%nat) l).
  { intros l L H. apply Forall_forall. intros x Hx. apply In_nth with (d := []) in Hx. destruct Hx as (k & Hk & <-). apply H. lia. }
  split; [|split; [|unfold inside; simpl; lra]].
  - apply G; [exact L1|]. intros k Hk. destruct (N k Hk) as (A & _). revert A. apply newpoint_wide; [right; now left|exact G1|exact WX|exact WD].
  - apply G; [exact L3|]. intros k Hk. destruct (N k Hk) as (_ & A & _). revert A. apply newpoint_der_wide; [right; now left|exact G1|exact WX|exact WD].
Qed.
