(** The theorems about interpolations in the form of AnalysisProps, and concrete
    cases of them. *)
From Coq Require Import String.
From Coquelicot Require Import Coquelicot.
From Verif Require Import Prelude PreludeFacts Poly PolyFacts PolyInterp Mat MatFacts PwModel PwFacts PwSpec PwInterpModel PwInterpSpec PwInterpProofs
  PsModel JacobiFacts PsSpec PsPointsProofs PsBaryProofs PsNodesProofs PsProblemProofs PsApplyProofs PsInterpProofs PsMoreProofs
  UtilModel UtilSpec BuTdModel BuTdSpec BuTdFacts BuTdProofs BuTdApplyProofs BuTdInterpProofs
  PhModel PhSpec PhProofs PhSegProofs PhBtProofs PhMoreProofs PhJoinProofs PhFinalProofs PhExamples
  AnalysisModel AnalysisSpec AnalysisProofs AnalysisPhProofs AnalysisSegProofs AnalysisSavedProofs AnalysisJoinProofs AnalysisMainProofs AnalysisPwProofs AnalysisLiveProofs AnalysisErrProofs.
Open Scope R_scope.
Open Scope vec_scope.
Open Scope list_scope.

Section Covers.
Variable rr : list R -> list R.
Hypothesis OK : real_roots_ok rr.
Variable lg : nat -> vec * vec.
Variable u_other : string -> R -> Res vec.
Variable hermite : list R -> list vec -> list vec -> R -> vec.
Variable dyn : vec -> vec -> vec -> vec -> vec.
Variables (p : ph_problem) (knots : vec) (ns : list nat) (w : ph_values) (nu : nat) (t : vec).
Hypothesis LK : length ns = (length knots + 1)%nat.
Hypothesis T : ph_t_start p < ph_t_end p.
Hypothesis GK : good_knots (ph_t_start p) (ph_t_end p) knots.
Hypothesis HE : Forall (enough_points (ph_scheme p)) ns.
Hypothesis HO : (1 <= ph_order p)%nat.
Hypothesis HQ : (1 <= ph_n_q p)%nat.
Hypothesis SX : shaped (ph_n_arr ns) (ph_order p * ph_n_q p) (hv_x w).
Hypothesis SD : shaped (ph_n_arr ns) (ph_order p * ph_n_q p) (hv_x_d w).
Hypothesis SU : shaped (ph_n_arr ns) nu (hv_u w).
Hypothesis Ht : ph_t_arr rr p knots ns = Ok t.
Notation tk := (knot_times (ph_t_start p) (ph_t_end p) knots).
Notation M := (ph_order p).
Notation interp r := (fun n g => interpolation_ph rr lg u_other hermite r M M None None n g).

Lemma covers_all r good : all_sampled rr lg u_other hermite p knots ns r good -> covers tk (interp r) good.
Proof.
  intros (A & B & C). unfold covers.
  assert (EL : (length tk - 1)%nat = length ns).
  { unfold knot_times. cbn [length]. rewrite app_length. cbn [length]. clear - LK. lia. }
  assert (EB : vnth tk (length ns) = ph_t_end p).
  { unfold knot_times, vnth. rewrite LK, Nat.add_1_r. cbn [nth]. rewrite app_nth2 by lia. now rewrite Nat.sub_diag. }
  cbv zeta. rewrite EL, EB. change (vnth tk 0) with (ph_t_start p). split; [exact A|]. split; [exact B|exact C].
Qed.
Theorem td_covers Ps Us : ph_kind p = Ph_td -> In (ph_scheme p) bt_schemes ->
  (forall s, (s < length ns)%nat -> shaped (nth s ns 0%nat + M) (ph_n_q p) (nth s (hv_q_constr w) [])) ->
  (forall s, (s < length ns)%nat ->
    segment_motion dyn (nth s ns 0%nat + M) (ph_n_q p) M t ns (hv_x w) (hv_x_d w) (hv_u w) (hv_lam w) s (nth s Ps []) /\
    forall i, (i < nth s ns 0 + M)%nat ->
      mrow i (nth s (hv_q_constr w) []) = state_at (nth s Ps [])
        (vnth (tau_to_t_points (LGL rr (nth s ns 0%nat + M)) (vnth t (knot_row ns s)) (vnth t (knot_row ns (s + 1)))) i)) ->
  segment_controls t ns (hv_u w) nu Us ->
  exists r, saved rr p knots ns w = Ok r /\ covers tk (interp r) (motion_sample M Ps Us).
Proof.
  intros A B C D E.
  edestruct (td_samples rr OK lg u_other hermite dyn p knots ns w nu t) as (r & E1 & E2); try eassumption.
  exists r. split; [exact E1|]. now apply covers_all.
Qed.
Theorem bu_covers Ps Us : leggauss_ok lg -> ph_kind p = Ph_bu -> In (ph_scheme p) bt_schemes ->
  (M = 2%nat \/ ~ In (ph_scheme p) jacobi_schemes) ->
  (forall s, (s < length ns)%nat ->
    segment_motion dyn (nth s ns 0%nat + M) (ph_n_q p) M t ns (hv_x w) (hv_x_d w) (hv_u w) (hv_lam w) s (nth s Ps [])) ->
  segment_controls t ns (hv_u w) nu Us ->
  exists r, saved rr p knots ns w = Ok r /\ covers tk (interp r) (motion_sample M Ps Us).
Proof.
  intros A B C D E G.
  edestruct (bu_samples rr OK lg u_other hermite dyn p knots ns w nu t) as (r & E1 & E2); try eassumption.
  exists r. split; [exact E1|]. now apply covers_all.
Qed.
Theorem ps_covers Ps Us : ph_kind p = Ph_ps -> M = 2%nat -> In (ph_scheme p) all_schemes -> ~ In (ph_scheme p) half_open ->
  (forall s, (s < length ns)%nat -> exists n, n_col_to_n_nodes (ph_scheme p) (nth s ns 0%nat) = Ok n /\
    segment_state_motion dyn n (M * ph_n_q p) t ns (hv_x w) (hv_x_d w) (hv_u w) (hv_lam w) s (nth s Ps [])) ->
  segment_controls t ns (hv_u w) nu Us ->
  exists r, saved rr p knots ns w = Ok r /\ covers tk (interp r) (state_sample (ph_n_q p) Ps Us).
Proof.
  intros A B C D E G.
  edestruct (ps_samples rr OK lg u_other hermite dyn p knots ns w nu t) as (r & E1 & E2); try eassumption.
  exists r. split; [exact E1|]. now apply covers_all.
Qed.
End Covers.

(** ** The mass with a constant force *)
Section Mass.
Variable rr : list R -> list R.
Hypothesis OK : real_roots_ok rr.
Variable lg : nat -> vec * vec.
Variable u_other : string -> R -> Res vec.
Variable hermite : list R -> list vec -> list vec -> R -> vec.
Notation ns := [2; 3]%nat.
Let P2 : list (list (list R)) := [[[0; 0; 1]]; [[0; 0; 1]]].
Let U2 : list (list (list R)) := [[[2]]; [[2]]].

Lemma mass_segment_controls rr' t : length t = ph_n_arr ns -> segment_controls t ns (hv_u (mass_motion rr' ns t)) 1 U2.
Proof.
  intros L s Hs. change (length ns) with 2%nat in Hs.
  assert (EU : nth s U2 [] = [[2]]) by (destruct s as [|[|s]]; [reflexivity|reflexivity|lia]). rewrite EU. split; [reflexivity|].
  intros j Hj. destruct j; [|cbn in Hj; lia]. split.
  - unfold seg_times. rewrite map_length, seq_length. destruct s as [|[|s]]; cbn; lia.
  - unfold seg_times at 1. rewrite map_length, seq_length. intros i Hi.
    unfold seg_part. rewrite vnth_mcol by (now rewrite map_length, seq_length).
    unfold mget. unfold mrow at 1. rewrite (nth_map' _ _ _ 0%nat) by (now rewrite seq_length). rewrite seq_nth by exact Hi.
    cbn [hv_u mass_motion]. rewrite (map_row (fun _ => [2])).
    + unfold vnth. cbn [nth peval]. ring.
    + rewrite L. apply (point_row_bound [1] ns eq_refl); [|exact Hi]. cbn. lia.
Qed.
Theorem mass_covers s : In s bt_schemes -> exists t r, ph_t_arr rr (mass_problem Ph_td s) [1] ns = Ok t /\
  saved rr (mass_problem Ph_td s) [1] ns (mass_motion rr ns t) = Ok r /\
  covers [0; 1; 3] (fun n g => interpolation_ph rr lg u_other hermite r 2 2 None None n g) (motion_sample 2 P2 U2).
Proof.
  intros H. destruct (mass_times rr OK Ph_td s (bt_all_schemes s H)) as (t & Et & L).
  destruct (mass_shapes rr t L) as (S1 & S2 & S3).
  assert (QS : forall r, (r < 2)%nat -> nth r (hv_q_constr (mass_motion rr ns t)) [] =
     map (fun a => [a * a]) (tau_to_t_points (LGL rr (nth r ns 0%nat + 2)) (vnth t (knot_row ns r)) (vnth t (knot_row ns (r + 1))))).
  { intros r Hr. cbn [hv_q_constr mass_motion]. rewrite (nth_map' _ _ _ 0%nat) by (rewrite seq_length; simpl; lia). rewrite seq_nth by (simpl; lia). reflexivity. }
  assert (LL : forall n, (2 <= n)%nat -> length (LGL rr n) = n).
  { intros n Hn. destruct (matrix_D_nu_ok rr OK n Hn) as (c' & _ & _ & LL & _). exact LL. }
  destruct (td_covers rr OK lg u_other hermite mass (mass_problem Ph_td s) [1] ns (mass_motion rr ns t) 1 t eq_refl ltac:(simpl; lra) mass_knots
    (mass_enough s) ltac:(simpl; lia) ltac:(simpl; lia) S1 S2 S3 Et P2 U2 eq_refl H) as (r & Er & C).
  - intros r Hr. change (length ns) with 2%nat in Hr. rewrite QS by exact Hr. apply map_shaped; [|reflexivity]. rewrite times_length. apply LL. destruct r as [|[|r]]; simpl; lia.
  - intros r Hr. change (length ns) with 2%nat in Hr.
    assert (EP : nth r P2 [] = [[0; 0; 1]]) by (destruct r as [|[|r]]; [reflexivity|reflexivity|lia]).
    rewrite EP. cbn [ph_order ph_n_q mass_problem]. split; [apply mass_segment; auto; destruct r as [|[|r]]; simpl; lia|].
    intros i Hi. rewrite QS by exact Hr. rewrite (map_row (fun a => [a * a])).
    + unfold state_at. cbn [map peval]. f_equal. ring.
    + rewrite times_length, LL; [exact Hi|destruct r as [|[|r]]; simpl; lia].
  - now apply mass_segment_controls.
  - exists t, r. auto.
Qed.
Lemma mass_reached n : (3 <= n)%nat -> all_reached [0; 1; 3] n.
Proof.
  intros Hn s Hs. cbv zeta. cbn [length Nat.sub] in *. destruct s as [|[|s]]; [| |lia].
  - exists 0%nat. split; [lia|]. unfold vnth. cbn [nth Nat.add INR]. lra.
  - exists (n - 2)%nat. split; [lia|]. unfold vnth. cbn [nth Nat.add].
    assert (E : INR (n - 1) = INR (n - 2) + 1) by (rewrite <- S_INR; f_equal; lia).
    assert (P : 1 <= INR (n - 2)) by (replace 1 with (INR 1) by reflexivity; apply le_INR; lia). rewrite E.
    assert (Q : (INR (n - 2) + 1) * / (INR (n - 2) + 1) = 1) by (apply Rinv_r; lra).
    assert (I0 : 0 < / (INR (n - 2) + 1)) by (apply Rinv_0_lt_compat; lra). unfold Rdiv. nra.
Qed.
Lemma mass_unreached : ~ all_reached [0; 1; 3] 2.
Proof.
  intros H. destruct (H 1%nat ltac:(cbn; lia)) as (m & Hm & A). revert A. unfold vnth. cbn [length nth Nat.sub Nat.add].
  destruct m as [|[|m]]; [cbn [INR]; lra|cbn [INR]; lra|lia].
Qed.
(** With two samples the second segment has one. *)
Theorem mass_refused s : In s bt_schemes -> exists t r e, ph_t_arr rr (mass_problem Ph_td s) [1] ns = Ok t /\
  saved rr (mass_problem Ph_td s) [1] ns (mass_motion rr ns t) = Ok r /\
  interpolation_ph rr lg u_other hermite r 2 2 None None 2 None = Err e.
Proof.
  intros H. destruct (mass_covers s H) as (t & r & Et & Er & _ & B & _). exists t, r.
  destruct (B 2%nat (le_n 2) mass_unreached) as (e & E). exists e. auto.
Qed.
(** The errors of the mass are zero. *)
Theorem mass_errors s n mode : In s bt_schemes -> In mode ["q"; "x"]%string -> (3 <= n)%nat ->
  exists t r rows segs rows' errs, ph_t_arr rr (mass_problem Ph_td s) [1] ns = Ok t /\
  saved rr (mass_problem Ph_td s) [1] ns (mass_motion rr ns t) = Ok r /\
  interpolation_ph rr lg u_other hermite r 2 2 None None n None = Ok (rows, segs) /\
  dynamic_errors_from_interp rows (fun x u => [vnth x 1; vnth u 0]) mode 2 = Ok (rows', errs) /\ length errs = n /\
  forall m e0, (m < n)%nat -> e_dyn (nth m errs e0) = [0] /\ e_compat (nth m errs e0) = [[0]].
Proof.
  intros H Hm Hn. destruct (mass_covers s H) as (t & r & Et & Er & A & _).
  destruct (A n ltac:(lia) (mass_reached n Hn)) as (rows & segs & Tm & E & _ & Sm & _).
  destruct (motion_errors [0; 1; 3] n Tm rows (fun x u => [vnth x 1; vnth u 0]) mode 1 P2 U2 Hm 2) as (rows' & errs & Ee & Le & HQ).
  - lia.
  - intros s' Hs'. cbn [length] in Hs'. destruct s' as [|[|s']]; [reflexivity|reflexivity|lia].
  - exact Sm.
  - exists t, r, rows, segs, rows', errs. do 4 (split; [assumption|]). split; [exact Le|]. intros m e0 Hm'.
    destruct (HQ m e0 Hm') as (s' & Hs' & _ & _ & -> & ->). split; [|reflexivity].
    assert (EP : nth s' P2 [] = [[0; 0; 1]] /\ nth s' U2 [] = [[2]]) by (cbn [length] in Hs'; destruct s' as [|[|s']]; [now split|now split|lia]).
    destruct EP as [-> ->]. unfold rate_n_at. cbn [map]. rewrite Derive_n_peval. rewrite full_state_parabola. cbv - [Rplus Rmult Rminus IZR Rinv Ropp]. f_equal. ring.
Qed.
End Mass.

(** ** A piecewise trajectory: q' = u from 0 to 2 *)
Notation line_F := (fun (x u : vec) (_ : unit) => [vnth u 0]).
Theorem line_error (u_other : string -> R -> Res vec) hermite n : (1 <= n)%nat ->
  exists r, dynamic_error u_other hermite [[0]; [1]; [2]] [[1]; [1]; [1]] 2 tt line_F None "trapz" "lin" None n 1 "x" = Ok r.
Proof.
  intros Hn. apply (dynamic_error_live line_F tt u_other hermite "trapz" 1).
  - discriminate.
  - reflexivity.
  - lra.
  - cbn; lia.
  - left; reflexivity.
  - exact Hn.
  - intros d _. exact I.
  - cbn. auto.
Qed.
Theorem line_hypotheses : order_form 1 1 line_F tt /\
  steps_hold line_F tt "trapz" 1 1 (2 / (INR 3 - 1)) [[0]; [1]; [2]] (full_controls [[0]; [1]; [2]] [[1]; [1]; [1]])
   (Build_sparams (Some 1%nat) None None None).
Proof.
  split.
  - intros x u L. split; [reflexivity|]. cbn. destruct x as [|a [|b x]]; try discriminate. reflexivity.
  - assert (E : 2 / (INR 3 - 1) = 1) by (cbn [INR]; field). rewrite E.
    intros i Hi. cbn [length] in Hi. eexists. split; [reflexivity|].
    destruct i as [|[|i]]; [| |lia]; unfold trapz_restr; cbn; constructor; try lra; constructor.
Qed.
