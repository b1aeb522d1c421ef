(** Dynamic errors of the bottom-up and top-down schemes: the options under
    which they are not computed, or are other errors. *)
From Coq Require Import String.
From Coquelicot Require Import Coquelicot.
From Verif Require Import Prelude PreludeFacts Poly PolyFacts PolyInterp Mat MatFacts PwModel PwFacts
  PwInterpModel PsModel JacobiFacts PsSpec PsPointsProofs PsBaryProofs PsNodesProofs PsProblemProofs PsApplyProofs PsInterpProofs
  PsMoreProofs PsFinalProofs UtilModel UtilSpec GaussFacts UtilProofs BuTdModel BuTdSpec BuTdFacts BuTdProofs BuTdApplyProofs BuTdInterpProofs
  BuTdMoreProofs BuTdFinalProofs.
Open Scope R_scope.
Open Scope vec_scope.
Open Scope list_scope.

Lemma rbind_ok {A B} (r : Res A) (k : A -> Res B) b : rbind r k = Ok b -> exists a, r = Ok a /\ k a = Ok b.
Proof. destruct r as [a|e]; cbn [rbind]; intros H; [now exists a|discriminate]. Qed.
Lemma mapm_ok {A B} (f : A -> Res B) l bs : mapm f l = Ok bs -> Forall2 (fun a b => f a = Ok b) l bs.
Proof.
  revert bs. induction l as [|a l IH]; intros bs; cbn [mapm].
  - intros [= <-]. constructor.
  - intros H. apply rbind_ok in H. destruct H as (b & Hb & H). apply rbind_ok in H. destruct H as (bs' & Hbs & H).
    injection H as <-. constructor; auto.
Qed.
Lemma mapm_of {A B} (f : A -> Res B) l bs : Forall2 (fun a b => f a = Ok b) l bs -> mapm f l = Ok bs.
Proof. induction 1 as [|a b l bs Hab _ IH]; [reflexivity|]. cbn [mapm]. rewrite Hab. cbn [rbind]. now rewrite IH. Qed.
Lemma mapm_iff {A B} (f : A -> Res B) l bs : mapm f l = Ok bs <-> Forall2 (fun a b => f a = Ok b) l bs.
Proof. split; [apply mapm_ok|apply mapm_of]. Qed.
Lemma Forall2_nth_ok {A B} (P : A -> B -> Prop) l bs i d : Forall2 P l bs -> (i < length l)%nat ->
  exists b, nth_error bs i = Some b /\ P (nth i l d) b.
Proof.
  intros F. revert i. induction F as [|a b l bs Hab _ IH]; intros i Hi; simpl in Hi; [lia|].
  destruct i as [|i]; [now exists b|]. apply (IH i). lia.
Qed.
Lemma Forall2_len {A B} (P : A -> B -> Prop) l bs : Forall2 P l bs -> length l = length bs.
Proof. induction 1; simpl; congruence. Qed.
Lemma divisions_length x n : length (get_x_divisions x n) = n.
Proof. unfold get_x_divisions. now rewrite map_length, seq_length. Qed.

(** Errors need as many parts in the derivatives as the order of the problem. *)
Lemma dyn_errs_few M all f so errs : (so < M)%nat -> length (nth 1 all []) = so -> dyn_errs M all f <> Ok errs.
Proof.
  intros L E H. unfold dyn_errs in H. apply mapm_ok in H.
  destruct (Forall2_nth_ok _ _ _ 0%nat 0%nat H ltac:(rewrite seq_length; lia)) as (b & _ & Hb).
  rewrite seq_nth in Hb by lia. apply mapm_ok in Hb.
  destruct (Forall2_nth_ok _ _ _ so 0%nat Hb ltac:(rewrite seq_length; lia)) as (c & _ & Hc).
  rewrite seq_nth in Hc by lia. cbn [Nat.add] in Hc.
  apply rbind_ok in Hc. destruct Hc as (divs & D & Hc). apply rbind_ok in Hc. destruct Hc as (a & I & _).
  unfold item in D. destruct (nth_error all 1) as [v|] eqn:N1; [|discriminate]. injection D as ->.
  apply nth_error_nth with (d := []) in N1. rewrite N1 in E.
  unfold item in I. rewrite (proj2 (nth_error_None divs so)) in I by lia. discriminate.
Qed.

Section Modes.
Variable rr : list R -> list R.
Variable lg : nat -> vec * vec.

Lemma bu_interp_rows xx xd uu name t0 tf M so ui xi t all qu :
  dynamic_error_BU_interp rr lg xx xd uu name t0 tf M so ui xi t = Ok (all, qu) -> (1 <= M)%nat ->
  length (nth 1 all []) = so.
Proof.
  unfold dynamic_error_BU_interp. intros H HM.
  apply rbind_ok in H. destruct H as ([[x xdot] u] & _ & H).
  apply rbind_ok in H. destruct H as (ders & HD & H). apply rbind_ok in H. destruct H as (q & _ & H).
  injection H as <- _. cbn [nth]. apply mapm_ok in HD.
  destruct (Forall2_nth_ok _ _ _ 0%nat 0%nat HD ltac:(rewrite seq_length; lia)) as (b & Nb & Hb).
  apply rbind_ok in Hb. destruct Hb as (v & _ & Hb). injection Hb as <-.
  apply nth_error_nth with (d := []) in Nb. now rewrite Nb, divisions_length.
Qed.

(** With a scheme order below the order of the problem nothing is computed. *)
Lemma bu_low_order F Fc xx xd uu name t0 tf M so ui xi mode ts errs : (so < M)%nat -> ts <> [] ->
  dynamic_error_BU_arr rr lg F Fc xx xd uu name t0 tf M so ui xi mode ts <> Ok errs.
Proof.
  intros L NE H. unfold dynamic_error_BU_arr in H.
  apply rbind_ok in H. destruct H as (rows & HR & H). apply rbind_ok in H. destruct H as (fs & HF & H).
  apply mapm_ok in HR, H. destruct ts as [|t ts]; [congruence|].
  inversion HR as [|? row ? rows' Hrow HR' E1 E2]; subst. destruct row as [all qu].
  assert (exists f0 fs', fs = f0 :: fs') as (f0 & fs' & ->).
  { unfold f_interp in HF. cbn [map] in HF. destruct (mode =? "q")%string.
    - injection HF as <-. cbn [map]. eauto.
    - destruct (mode =? "x")%string; [|discriminate]. apply mapm_ok in HF. inversion HF; subst; eauto. }
  cbn [combine] in H. inversion H as [|? e ? es He _ E1 E2]; subst. cbn [fst snd] in He.
  exact (dyn_errs_few _ _ _ _ _ L (bu_interp_rows _ _ _ _ _ _ _ _ _ _ _ _ _ Hrow ltac:(lia)) He).
Qed.

(** Mode "x" never returns the errors at more times than letters of the name
    of the interpolation; no other mode than "q" and "x" returns. *)
Lemma f_interp_x F Fc nq xi rows fs : (String.length xi < length rows)%nat -> f_interp F Fc nq "x" xi rows <> Ok fs.
Proof.
  intros L H. unfold f_interp in H. cbn in H. apply mapm_ok in H.
  destruct (Forall2_nth_ok _ _ _ (String.length xi) 0%nat H ltac:(now rewrite seq_length)) as (b & _ & Hb).
  rewrite seq_nth in Hb by exact L. cbn [Nat.add] in Hb.
  assert (G : forall s, String.get (String.length s) s = None) by (induction s; simpl; auto).
  rewrite G in Hb. discriminate.
Qed.
Lemma f_interp_other F Fc nq mode xi rows : ~ In mode ["q"; "x"]%string -> f_interp F Fc nq mode xi rows = Err ValueError.
Proof.
  intros N. unfold f_interp. destruct (String.eqb_spec mode "q") as [->|_]; [exfalso; apply N; now left|].
  destruct (String.eqb_spec mode "x") as [->|_]; [exfalso; apply N; right; now left|reflexivity].
Qed.
Lemma bu_mode_x F Fc xx xd uu name t0 tf M so ui xi ts errs : (String.length xi < length ts)%nat ->
  dynamic_error_BU_arr rr lg F Fc xx xd uu name t0 tf M so ui xi "x" ts <> Ok errs.
Proof.
  intros L H. unfold dynamic_error_BU_arr in H.
  apply rbind_ok in H. destruct H as (rows & HR & H). apply rbind_ok in H. destruct H as (fs & HF & _).
  apply mapm_ok, Forall2_len in HR. apply f_interp_x in HF; [exact HF|]. rewrite map_length, <- HR. exact L.
Qed.
Lemma td_mode_x F Fc qc xx xd uu name t0 tf M so ui xi ts errs : (String.length xi < length ts)%nat ->
  dynamic_error_TD_arr rr F Fc qc xx xd uu name t0 tf M so ui xi "x" ts <> Ok errs.
Proof.
  intros L H. unfold dynamic_error_TD_arr in H.
  apply rbind_ok in H. destruct H as (rows & HR & H). apply rbind_ok in H. destruct H as (fs & HF & _).
  apply mapm_ok, Forall2_len in HR. apply f_interp_x in HF; [exact HF|]. rewrite map_length, <- HR. exact L.
Qed.
Lemma bu_mode_other F Fc xx xd uu name t0 tf M so ui xi mode ts errs : ~ In mode ["q"; "x"]%string ->
  dynamic_error_BU_arr rr lg F Fc xx xd uu name t0 tf M so ui xi mode ts <> Ok errs.
Proof.
  intros L H. unfold dynamic_error_BU_arr in H.
  apply rbind_ok in H. destruct H as (rows & HR & H). rewrite f_interp_other in H by exact L. discriminate.
Qed.
Lemma td_mode_other F Fc qc xx xd uu name t0 tf M so ui xi mode ts errs : ~ In mode ["q"; "x"]%string ->
  dynamic_error_TD_arr rr F Fc qc xx xd uu name t0 tf M so ui xi mode ts <> Ok errs.
Proof.
  intros L H. unfold dynamic_error_TD_arr in H.
  apply rbind_ok in H. destruct H as (rows & HR & H). rewrite f_interp_other in H by exact L. discriminate.
Qed.

(** In mode "q" the errors at many times are those at each time. *)
Lemma rows_pointwise {A} (row : A -> Res (list (list vec) * (vec * vec))) (F : vec -> vec -> vec) Fc nq M xi l errs :
  (do rows <- mapm row l; do fs <- f_interp F Fc nq "q" xi (map snd rows);
   mapm (fun r => dyn_errs M (fst (fst r)) (snd r)) (combine rows fs)) = Ok errs <->
  Forall2 (fun t e => (do (all, (q, u)) <- row t; dyn_errs M all (lastn nq (F q u))) = Ok e) l errs.
Proof.
  revert errs. induction l as [|t l IH]; intros errs.
  - cbn. split; [intros [= <-]; constructor|]. intros H. now inversion H.
  - cbn [mapm]. split.
    + intros H. apply rbind_ok in H. destruct H as (rows & HR & H).
      apply rbind_ok in HR. destruct HR as ([all [q u]] & Hr & HR). apply rbind_ok in HR. destruct HR as (rows' & HR & E). injection E as <-.
      change (rbind (f_interp F Fc nq "q" xi (map snd ((all, (q, u)) :: rows')))
        (fun fs => mapm (fun r : list (list vec) * (vec * vec) * vec => dyn_errs M (fst (fst r)) (snd r)) (combine ((all, (q, u)) :: rows') fs)) = Ok errs) in H.
      unfold f_interp in H. cbn [String.eqb Ascii.eqb Bool.eqb map snd fst rbind combine mapm] in H.
      apply rbind_ok in H. destruct H as (e & He & H). apply rbind_ok in H. destruct H as (es & Hes & H). injection H as <-.
      constructor; [rewrite Hr; cbn [rbind]; exact He|]. apply IH. rewrite HR. exact Hes.
    + intros H. inversion H as [|? e ? es He Hes E1 E2]; subst. apply IH in Hes.
      apply rbind_ok in Hes. destruct Hes as (rows & HR & Hes).
      apply rbind_ok in He. destruct He as ([all [q u]] & Hr & He).
      rewrite Hr. cbn [rbind]. rewrite HR. unfold f_interp in *.
      cbn [String.eqb Ascii.eqb Bool.eqb map snd fst rbind combine mapm] in *. rewrite He. cbn [rbind]. now rewrite Hes.
Qed.
Lemma bu_pointwise F Fc xx xd uu name t0 tf M so ui xi ts errs : (2 <= length ts)%nat ->
  dynamic_error_BU_arr rr lg F Fc xx xd uu name t0 tf M so ui xi "q" ts = Ok errs <->
  Forall2 (fun t e => dynamic_error_BU rr lg F xx xd uu name t0 tf M so ui xi t = Ok e) ts errs.
Proof. intros _. apply rows_pointwise. Qed.
Lemma td_pointwise F Fc qc xx xd uu name t0 tf M so ui xi ts errs : (2 <= length ts)%nat ->
  xi <> "lin"%string \/ (M < 2)%nat \/ length ts = length xx ->
  dynamic_error_TD_arr rr F Fc qc xx xd uu name t0 tf M so ui xi "q" ts = Ok errs <->
  Forall2 (fun t e => dynamic_error_TD rr F qc xx xd uu name t0 tf M so ui xi t = Ok e) ts errs.
Proof.
  intros _ HL. unfold dynamic_error_TD_arr.
  assert (E : ((xi =? "lin")%string && (2 <=? M)%nat && negb (length xx =? length ts)%nat && negb (length xx =? 1)%nat)%bool = false).
  { destruct (String.eqb_spec xi "lin") as [->|]; [|reflexivity]. destruct (Nat.leb_spec 2 M) as [G|]; [|reflexivity].
    destruct HL as [|[|HL]]; [congruence|lia|]. now rewrite HL, Nat.eqb_refl. }
  rewrite E. apply rows_pointwise.
Qed.
Lemma td_lin F Fc qc xx xd uu name t0 tf M so ui mode ts errs : (2 <= M)%nat -> (2 <= length ts)%nat ->
  length ts <> length xx -> length xx <> 1%nat ->
  dynamic_error_TD_arr rr F Fc qc xx xd uu name t0 tf M so ui "lin" mode ts <> Ok errs.
Proof.
  intros HM _ HL H1 H. unfold dynamic_error_TD_arr in H.
  apply rbind_ok in H. destruct H as (rows & HR & H). apply rbind_ok in H. destruct H as (fs & HF & H).
  rewrite (proj2 (Nat.leb_le _ _) HM), (proj2 (Nat.eqb_neq _ _) (not_eq_sym HL)), (proj2 (Nat.eqb_neq _ _) H1) in H. discriminate H.
Qed.
End Modes.

(** Schemes whose points do not depend on the order of the scheme. *)
Lemma order_free rr N s M : In s ["LG"; "CG"; "LGR"; "CGR"; "LGR_inv"; "CGR_inv"; "LGL"; "CGL"]%string ->
  coll_points rr N s M = coll_points rr N s 2 /\ BU_construction_points rr N s M = BU_construction_points rr N s 2.
Proof. cbn [In]. intros H. repeat (destruct H as [<-|H]; [split; reflexivity|]). destruct H. Qed.

Section OrderOne.
Variable rr : list R -> list R.
Hypothesis OK : real_roots_ok rr.
Variable lg : nat -> vec * vec.
Hypothesis LGOK : leggauss_ok lg.

Lemma bu_order_one s name N nq nu t0 tf xx xx_dot uu P U tc cn :
  In s ["LG"; "CG"; "LGR"; "CGR"; "LGR_inv"; "CGR_inv"; "LGL"; "CGL"]%string -> In name [s; ("BU_" ++ s)%string] ->
  enough_points s N -> (1 <= nq)%nat -> t0 <> tf ->
  coll_points rr N s 1 = Ok tc -> BU_construction_points rr N s 1 = Ok cn ->
  let ts := tau_to_t_points ([-1] ++ cn) t0 tf in
  shaped (length ts) nq xx_dot -> length P = nq -> Forall (fun c => (length c <= N + 1)%nat) P ->
  (forall i, (i < length ts)%nat -> mrow i xx = state_at P (vnth ts i)) ->
  (forall i, (i < length ts)%nat -> mrow i xx_dot = rate_n_at 1 P (vnth ts i)) ->
  shaped N nu uu -> length U = nu -> traj_through (tau_to_t_points tc t0 tf) uu U -> forall F t,
  length (F (state_at P t) (state_at U t)) = nq ->
  dynamic_error_BU rr lg F xx xx_dot uu name t0 tf 1 2 "pol" "pol" t =
  if (nq =? 1)%nat then Ok [[[]]]
  else if (nq <=? 3)%nat
  then Ok [[map (fun y => vnth (rate_n_at 1 P t) 0 - y) (F (state_at P t) (state_at U t))]]
  else Err ValueError.
Proof.
  intros S HN E HQ T C1 K1 ts SX LP BP RX RD SU LU TU F t LF.
  destruct (order_free rr N s 1 S) as [C2 K2]. rewrite C1 in C2. rewrite K1 in K2. symmetry in C2, K2.
  assert (H : In s bt_schemes). { clear -S. cbn [In] in S. repeat (destruct S as [<-|S]; [cbn; tauto|]). destruct S. }
  assert (HN' : In s [s; ("BU_" ++ s)%string]) by now left.
  assert (FS : forall t, full_state 1 P t = state_at P t).
  { intros t'. unfold full_state. cbn [seq flat_map]. rewrite app_nil_r. reflexivity. }
  assert (SX' : shaped (length ts) (1 * nq) xx_dot) by (now rewrite Nat.mul_1_l).
  assert (RX' : forall i, (i < length ts)%nat -> mrow i xx = full_state 1 P (vnth ts i)) by (intros; rewrite FS; auto).
  assert (RD' : forall i, (i < length ts)%nat -> lastn nq (mrow i xx_dot) = rate_n_at 1 P (vnth ts i)).
  { intros i Hi. rewrite RD by exact Hi. rewrite lastn_slice by exact HQ. rewrite rate_n_length, LP. unfold slice. rewrite Nat.sub_diag. cbn [skipn].
    rewrite firstn_all2; [reflexivity|]. rewrite rate_n_length. lia. }
  assert (IT := bu_interp rr OK lg LGOK s s N 1 nq nu t0 tf xx xx_dot uu P U tc cn H HN' E ltac:(lia) HQ T C1 C2 K1 SX' LP BP RX' RD' SU LU TU t).
  assert (ID := bu_interp_deriv rr OK lg LGOK s s N 1 nq nu t0 tf xx xx_dot uu P U tc cn H HN' E ltac:(lia) HQ T C1 C2 K1 SX' LP BP RX' RD' SU LU TU 1 t).
  unfold dynamic_error_BU, dynamic_error_BU_interp.
  rewrite (strip_name "BU_" s name H ltac:(now left) HN).
  assert (I2 : forall k, interpolations_BU_pseudospectral rr lg xx xx_dot uu s 1 t0 tf k "pol" "pol" t
    = interpolations_BU_pseudospectral rr lg xx xx_dot uu s 1 t0 tf 2 "pol" "pol" t).
  { intros k. unfold interpolations_BU_pseudospectral. rewrite (strip_name "BU_" s s H ltac:(now left) HN').
    destruct (get_coll_indices s) as [ci|]; cbn [rbind]; [|reflexivity].
    now rewrite (proj2 (order_free rr _ s k S)). }
  assert (D2 : forall k, interpolations_deriv_BU_pseudospectral rr lg xx xx_dot s 1 1 t0 tf k "pol" t
    = interpolations_deriv_BU_pseudospectral rr lg xx xx_dot s 1 1 t0 tf 2 "pol" t).
  { intros k. unfold interpolations_deriv_BU_pseudospectral. rewrite (strip_name "BU_" s s H ltac:(now left) HN').
    destruct (get_coll_indices s) as [ci|]; cbn [rbind]; [|reflexivity].
    now rewrite (proj2 (order_free rr _ s k S)). }
  rewrite (I2 1%nat) in IT. rewrite (D2 1%nat) in ID. rewrite IT. cbn [rbind seq mapm]. rewrite ID. cbn [rbind seq flat_map].
  rewrite app_nil_r, FS. cbn [Nat.add].
  assert (LX : length (mrow 0 xx) = nq).
  { rewrite RX; [unfold state_at; now rewrite map_length|]. unfold ts. rewrite times_length. simpl. lia. }
  rewrite LX, Nat.div_1_r. unfold q_and_d_interp. cbn [seq mapm]. unfold item at 1 2. cbn [nth_error rbind].
  unfold get_x_divisions at 1 3. cbn [seq map nth_error]. 
  assert (LS : length (state_at P t) = nq) by (unfold state_at; now rewrite map_length).
  assert (SL : slice (length (state_at P t) / 1 * 0) (length (state_at P t) / 1 * (0 + 1)) (state_at P t) = state_at P t).
  { rewrite Nat.div_1_r, Nat.mul_0_r. unfold slice. cbn [skipn]. rewrite Nat.mul_1_r, Nat.sub_0_r. now rewrite firstn_all. }
  rewrite SL. cbn [rbind]. unfold row_assign. rewrite LS, Nat.eqb_refl. cbn [rbind concat]. rewrite app_nil_r.
  assert (LL : lastn nq (F (state_at P t) (state_at U t)) = F (state_at P t) (state_at U t)).
  { rewrite lastn_slice by exact HQ. rewrite LF. unfold slice. rewrite Nat.sub_diag. cbn [skipn]. apply firstn_all2. lia. }
  rewrite LL. unfold dyn_errs. cbn [seq mapm]. cbn [Nat.sub seq mapm Nat.add]. unfold item. cbn [nth_error rbind nth app].
  set (x' := rate_n_at 1 P t). assert (LX' : length x' = nq) by (unfold x'; now rewrite rate_n_length).
  set (f := F (state_at P t) (state_at U t)) in *.
  unfold get_x_divisions. cbn [seq map nth_error rbind]. rewrite LX', !Nat.mul_0_r, !Nat.mul_1_r.
  unfold slice. cbn [skipn app rbind]. rewrite !Nat.sub_0_r. unfold row_sub. rewrite firstn_length, LX', LF.
  clear - HQ LX' LF.
  destruct nq as [|[|[|[|n]]]]; [lia|reflexivity| | |].
  1,2: cbn; destruct x' as [|a x']; [discriminate|]; destruct f; reflexivity.
  assert (Q : (Nat.min (S (S (S (S n))) / 2) (S (S (S (S n)))) = S (S (n / 2)))%nat).
  { replace (S (S (S (S n)))) with (n + 2 * 2)%nat at 1 by lia. rewrite Nat.div_add by lia.
    assert (n / 2 <= n)%nat by (apply Nat.div_le_upper_bound; lia). lia. }
  rewrite Q. assert (n / 2 <= n)%nat by (apply Nat.div_le_upper_bound; lia).
  destruct (Nat.eqb_spec (S (S (n / 2))) (S (S (S (S n))))); [lia|]. reflexivity.
Qed.

(** Two tanks filled at rates 1 and 2: the trajectory is the exact solution, and
    the error reported for the second tank is -1. *)
Lemma bu_order_one_example s N t0 tf t :
  In s ["LG"; "CG"; "LGR"; "CGR"; "LGR_inv"; "CGR_inv"; "LGL"; "CGL"]%string -> enough_points s N -> t0 <> tf ->
  exists tc cn, let ts := tau_to_t_points ([-1] ++ cn) t0 tf in
  let P := [[0; 1]; [0; 2]] in let U := [[0]] in
  let xx := map (state_at P) ts in let xd := map (rate_n_at 1 P) ts in let uu := map (state_at U) (tau_to_t_points tc t0 tf) in
  coll_points rr N s 1 = Ok tc /\ BU_construction_points rr N s 1 = Ok cn /\
  shaped (length ts) 2 xd /\ Forall (fun c => (length c <= N + 1)%nat) P /\
  (forall i, (i < length ts)%nat -> mrow i xx = state_at P (vnth ts i)) /\
  (forall i, (i < length ts)%nat -> mrow i xd = rate_n_at 1 P (vnth ts i)) /\
  shaped N 1 uu /\ traj_through (tau_to_t_points tc t0 tf) uu U /\
  (forall t, rate_n_at 1 P t = [1; 2]) /\
  dynamic_error_BU rr lg (fun _ _ => [1; 2]) xx xd uu s t0 tf 1 2 "pol" "pol" t = Ok [[[0; -1]]].
Proof.
  intros S E T.
  assert (H : In s bt_schemes). { clear -S. cbn [In] in S. repeat (destruct S as [<-|S]; [cbn; tauto|]). destruct S. }
  destruct (coll_points_ok rr OK s N 1 (bt_all s H) E) as (tc & Ec & Lc & _).
  assert (exists cn, BU_construction_points rr N s 1 = Ok cn) as (cn & En).
  { unfold BU_construction_points. rewrite BU_coll_points_eq, Ec by exact H. cbn [rbind]. clear -S. cbn [In] in S.
    repeat (destruct S as [<-|S]; [cbn; eauto|]). destruct S. }
  exists tc, cn. intros ts P U xx xd uu.
  assert (HN1 : (1 <= N)%nat) by apply E.
  assert (A1 : shaped (length ts) 2 xd).
  { split; [unfold xd; now rewrite map_length|]. apply Forall_map. apply Forall_forall. intros; now rewrite rate_n_length. }
  assert (A2 : Forall (fun c => (length c <= N + 1)%nat) P) by (repeat constructor; simpl; lia).
  assert (A3 : forall i, (i < length ts)%nat -> mrow i xx = state_at P (vnth ts i)).
  { intros i Hi. unfold mrow, xx. rewrite (nth_map' _ _ _ 0) by exact Hi. reflexivity. }
  assert (A4 : forall i, (i < length ts)%nat -> mrow i xd = rate_n_at 1 P (vnth ts i)).
  { intros i Hi. unfold mrow, xd. rewrite (nth_map' _ _ _ 0) by exact Hi. reflexivity. }
  assert (A5 : shaped N 1 uu).
  { split; [unfold uu; rewrite map_length, times_length; exact Lc|]. apply Forall_map. apply Forall_forall. intros; reflexivity. }
  assert (A6 : traj_through (tau_to_t_points tc t0 tf) uu U).
  { apply (traj_of_rows _ _ N 1); auto.
    - now rewrite times_length.
    - intros c [<-|[]]. simpl. lia.
    - intros i Hi. unfold mrow, uu. rewrite (nth_map' _ _ _ 0) by (rewrite times_length; lia). reflexivity. }
  assert (A7 : forall t, rate_n_at 1 P t = [1; 2]).
  { intros t'. unfold P. rewrite rate_n_eval. cbn. repeat f_equal; ring. }
  do 9 (split; [assumption|]).
  rewrite (bu_order_one s s N 2 1 t0 tf xx xd uu P U tc cn S ltac:(now left) E ltac:(lia) T Ec En A1 eq_refl A2 A3 A4 A5 eq_refl A6 (fun _ _ => [1; 2]) t eq_refl).
  cbn [Nat.eqb Nat.leb]. rewrite A7. cbn. repeat f_equal; ring.
Qed.
End OrderOne.
