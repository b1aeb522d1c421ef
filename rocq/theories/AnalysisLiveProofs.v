(** Errors of piecewise trajectories are computed; samples of the schemes whose
    segments are not extended; interpolations of problems that do not start at
    time 0. *)
From Coq Require Import String.
From Coquelicot Require Import Coquelicot.
From Verif Require Import Prelude PreludeFacts Poly PolyFacts PolyInterp Mat MatFacts PwModel PwFacts PwSpec PwInterpModel PwInterpSpec PwInterpProofs PwMoreProofs PwLiveProofs
  PsModel JacobiFacts PsSpec PsPointsProofs PsBaryProofs PsNodesProofs PsProblemProofs PsApplyProofs PsInterpProofs PsMoreProofs BuTdFacts BuTdProofs BuTdApplyProofs BuTdInterpProofs
  UtilModel UtilSpec BuTdModel BuTdSpec PhModel PhSpec PhProofs PhMoreProofs
  AnalysisModel AnalysisSpec AnalysisProofs AnalysisSavedProofs AnalysisPhProofs AnalysisMainProofs AnalysisPwProofs.
Open Scope R_scope.
Open Scope vec_scope.
Open Scope list_scope.

(** ** Derivatives are computed *)
Lemma newpoint_der_ok X Xd h scheme d sp :
  0 < h -> (2 <= length X)%nat -> length Xd = length X ->
  (forall i x x_n xd xdn tau, (i + 1 < length X)%nat -> exists y, interp_der_scheme scheme d sp (Z.of_nat i) x x_n xd xdn tau h = Ok y) ->
  forall t, 0 <= t <= (INR (length X) - 1) * h -> exists y, newpoint_der X Xd h t scheme d sp = Ok y.
Proof.
  intros Hh HX HXd Hs t Ht. pose proof snap_pos as S1.
  pose proof (seg_bounds t h Hh) as B. pose proof (seg_time t h) as E.
  assert (G : forall i tau, (i + 1 < length X)%nat -> exists y,
     (if (Z.of_nat (length X) <=? Z.of_nat i + 1)%Z then Err ValueError
      else do x <- pyget X (Z.of_nat i); do x_n <- pyget X (Z.of_nat i + 1)%Z;
           do xd <- pyget Xd (Z.of_nat i); do xdn <- pyget Xd (Z.of_nat i + 1)%Z;
           interp_der_scheme scheme d sp (Z.of_nat i) x x_n xd xdn tau h) = Ok y).
  { intros i tau Hi. destruct (Z.leb_spec (Z.of_nat (length X)) (Z.of_nat i + 1)); [lia|].
    replace (Z.of_nat i + 1)%Z with (Z.of_nat (i + 1)) by lia.
    rewrite (pyget_nat X i []), (pyget_nat X (i + 1) []), (pyget_nat Xd i []), (pyget_nat Xd (i + 1) []) by lia. cbn [rbind]. apply Hs. exact Hi. }
  unfold newpoint_der. destruct (Rlt_dec _ _) as [Hend|Hend].
  - replace (Z.of_nat (length X) - 2)%Z with (Z.of_nat (length X - 2)) by lia. apply G. lia.
  - set (z := seg_index t h) in *. set (tau := seg_tau t h) in *. clearbody z tau.
    assert (Hz0 : (0 <= z)%Z).
    { assert (IZR (-1) < IZR z) as HH by nra. apply lt_IZR in HH. lia. }
    assert (Hz1 : (z < Z.of_nat (length X - 1))%Z).
    { apply lt_IZR. rewrite <- INR_IZR_INZ, minus_INR by lia. cbn [INR].
      apply Rnot_le_lt. intros C. apply Hend.
      assert (t = h * (INR (length X) - 1)) by nra. replace (t - h * (INR (length X) - 1)) with 0 by lra. rewrite Rabs_R0. nra. }
    rewrite <- (Z2Nat.id z) by exact Hz0. apply G. lia.
Qed.
Lemma der_scheme_ok scheme sp1 order M N d i x x_n xd xdn tau h :
  scheme_blocks scheme order = Some M -> sp_order sp1 = order -> (1 <= d)%nat -> dmax_of scheme d ->
  (contains "hs" scheme = true -> exists XC, sp_x_dot_c sp1 = Some XC /\
     forall i, (i + 1 < N)%nat -> exists v, pyget XC (Z.of_nat i) = Ok v) ->
  (i + 1 < N)%nat -> exists y, interp_der_scheme scheme d sp1 (Z.of_nat i) x x_n xd xdn tau h = Ok y.
Proof.
  intros Hb Ho Hd Hdm Hc Hi. unfold scheme_blocks in Hb. simpl in Hb.
  repeat match type of Hb with
    | context [if ((scheme =? ?b)%string || _)%bool then _ else _] =>
        destruct (String.eqb_spec scheme b);
        [subst scheme; unfold interp_der_scheme; simpl;
         try (destruct (Hc eq_refl) as [XC [E1 E2]]; destruct (E2 i Hi) as [v Ev]; rewrite E1; simpl; rewrite Ev; simpl);
         try (cbn in Hdm; destruct d as [|[|[|d]]]; [lia| | |lia]);
         eexists; reflexivity|]; simpl in Hb
    end.
  destruct (String.eqb_spec scheme "trapz_n"); [|discriminate].
  subst scheme. unfold interp_der_scheme. simpl. rewrite Ho, Hb. eexists. reflexivity.
Qed.

Section Live.
Context {P : Type}.
Variable F : vec -> vec -> P -> vec.
Variable p : P.
Variable u_other : string -> R -> Res vec.
Variable hermite : list R -> list vec -> list vec -> R -> vec.

Lemma derivative_succeeds scheme u_scheme M h X U ts sp r d :
  scheme_blocks scheme (sp_order sp) = Some M -> 0 < h -> (2 <= length X)%nat ->
  sp_x_dot_c sp = None -> sp_x_c sp = None -> (1 <= d)%nat -> dmax_of scheme d ->
  (forall t, In t ts -> 0 <= t <= (INR (length X) - 1) * h) ->
  interpolated_array u_other hermite X U h ts p (Some F) None scheme u_scheme (Some sp) = Ok r ->
  exists r', interpolated_array_derivative X U h ts p (Some F) None scheme d (Some sp) = Ok r'.
Proof.
  intros Hb Hh HL H1 H2 Hd Hdm Hts. assert (Hsci := scheme_not_scipy _ _ _ Hb).
  unfold interpolated_array, interpolated_array_derivative. intros H.
  destruct (negb (mem scheme supported_schemes)); [discriminate|].
  destruct (negb (mem u_scheme supported_u_schemes)); [discriminate|].
  destruct (contains "j" scheme && (u_scheme =? "parab")%string); [discriminate|].
  destruct (contains "j" u_scheme && negb (contains "j" scheme)); [discriminate|].
  match type of H with (do _ <- ?e; _) = _ => destruct e as [?|?]; cbn [rbind] in H; [|discriminate] end.
  destruct (prepare_interp X U h ts) as [[U' old]|e] eqn:EP; cbn [rbind] in *; [|discriminate].
  destruct (calculate_missing X U' h p (Some F) None scheme u_scheme sp) as [[Xd' sp2]|e] eqn:EM; cbn [rbind] in H; [|discriminate]. clear H.
  destruct (missing_twice F p X U' h None scheme u_scheme sp Xd' sp2 EM) as [-> _]. cbn [rbind].
  apply prepare_ok in EP. destruct EP as [_ [LU _]].
  apply missing_ok in EM; auto. destruct EM as [LXd [_ [Ho Hxc]]].
  apply String.eqb_neq in Hsci. rewrite Hsci. apply String.eqb_neq in Hsci.
  destruct (mapm_succeeds (fun t => newpoint_der X Xd' h t scheme d sp2) ts) as [nX ->]; [|cbn [rbind]; eauto].
  intros t Ht. apply newpoint_der_ok; auto. intros i x x_n xd xdn tau Hi.
  apply (der_scheme_ok scheme sp2 (sp_order sp) M (length X)); auto.
  intros E. destruct (Hxc E) as [XC [E1 E2]]. exists XC. split; auto. intros j Hj. rewrite E2 by auto. eauto.
Qed.

Theorem dynamic_error_live scheme (M order : nat) (t_end : R) (X U : list vec) (sp0 : option sparams) n_interp mode :
  (forall d, sp0 = Some d -> sp_x_dot_c d = None /\ sp_x_c d = None /\ forall c, sp_u_c d = Some c -> (length X <= length c + 1)%nat) ->
  scheme_blocks scheme (Some order) = Some M -> 0 < t_end -> (2 <= length X)%nat ->
  (length U = length X \/ length X = (length U + 1)%nat) -> (1 <= n_interp)%nat ->
  (forall d, (d <= order)%nat -> dmax_of scheme d) -> In mode ["q"; "x"]%string ->
  exists r, dynamic_error u_other hermite X U t_end p F None scheme "lin" sp0 n_interp order mode = Ok r.
Proof.
  intros HSP SB TE LX LU Hn DM HM. unfold dynamic_error.
  set (sp := Build_sparams (Some order) _ _ _). set (h := t_end / (INR (length X) - 1)).
  assert (HS : sp_x_dot_c sp = None /\ sp_x_c sp = None /\ forall c, sp_u_c sp = Some c -> (length X <= length c + 1)%nat).
  { unfold sp. destruct sp0 as [d|]; cbn [sp_x_dot_c sp_x_c sp_u_c no_params]; [now apply HSP|]. repeat split. intros c C. discriminate. }
  destruct HS as (A & B & C).
  assert (LX' : 0 < INR (length X) - 1).
  { apply (le_INR 2) in LX. cbn [INR] in LX. lra. }
  assert (Hh : 0 < h) by (apply Rdiv_lt_0_compat; assumption).
  assert (HT : forall t, In t (linspace 0 t_end n_interp) -> 0 <= t <= (INR (length X) - 1) * h).
  { intros t Ht. split; [revert Ht; apply linspace_nonneg; lra|]. replace ((INR (length X) - 1) * h) with t_end by (unfold h; field; lra).
    apply (In_nth _ _ 0) in Ht. destruct Ht as (k & Hk & <-). rewrite linspace_length in Hk. apply linspace_le; [lra|exact Hk]. }
  destruct (driver_succeeds F p u_other hermite scheme M h X U (linspace 0 t_end n_interp) sp SB Hh LX LU A B C) as [[[nX nU] sp1] EI].
  { intros N. apply (f_equal (@length R)) in N. rewrite linspace_length in N. cbn in N. lia. }
  { exact HT. }
  rewrite EI. cbn [rbind].
  match goal with |- context [do ders <- mapm ?f ?l; _] => destruct (mapm_succeeds f l) as [ders ->] end.
  { intros d Hd. apply in_seq in Hd. rewrite (second_call F p u_other hermite X U h _ None scheme "lin" sp nX nU sp1 d EI).
    destruct (derivative_succeeds scheme "lin" M h X U (linspace 0 t_end n_interp) sp _ d SB Hh LX A B ltac:(lia) ltac:(apply DM; lia) HT EI) as [[a s] ->]. cbn [rbind]. eauto. }
  cbn [rbind].
  match goal with |- context [do errs <- mapm ?f ?l; _] => destruct (mapm_succeeds f l) as [errs ->] end; [|cbn [rbind]; eauto].
  intros k _. destruct HM as [<-|[<-|[]]]; cbn [String.eqb Ascii.eqb Bool.eqb rbind]; eauto.
Qed.
Theorem dynamic_error_bad_mode scheme (M order : nat) (t_end : R) (X U : list vec) (sp0 : option sparams) n_interp mode u_scheme r :
  (1 <= n_interp)%nat -> ~ In mode ["q"; "x"]%string ->
  dynamic_error u_other hermite X U t_end p F None scheme u_scheme sp0 n_interp order mode = Ok r -> False.
Proof.
  intros Hn HM. unfold dynamic_error.
  match goal with |- (do _ <- ?e; _) = _ -> _ => destruct e as [[[nX nU] sp1]|?]; cbn [rbind]; [|discriminate] end.
  match goal with |- (do _ <- ?e; _) = _ -> _ => destruct e as [ders|?]; cbn [rbind]; [|discriminate] end.
  destruct n_interp as [|n]; [lia|]. cbn [seq mapm].
  destruct (String.eqb_spec mode "q") as [->|N1]; [exfalso; apply HM; cbn; auto|].
  destruct (String.eqb_spec mode "x") as [->|N2]; [exfalso; apply HM; cbn; auto|]. cbn [rbind]. discriminate.
Qed.
End Live.

(** ** The difference is zero exactly when the equation holds *)
Lemma vsub_zero a b : length a = length b -> (a -v b = repeat 0 (length a) <-> a = b).
Proof.
  revert b. induction a as [|x a IH]; intros [|y b] L; try discriminate; [split; reflexivity|].
  cbn [length] in L. unfold vsub in *. cbn [map2 length repeat]. split.
  - intros E. injection E as E1 E2. f_equal; [lra|]. apply IH; [lia|exact E2].
  - intros E. injection E as -> ->. f_equal; [ring|]. apply IH; [lia|reflexivity].
Qed.

Lemma in_firstn {A} n (l : list A) a : In a (firstn n l) -> In a l.
Proof.
  revert n. induction l as [|b l IH]; intros [|n]; cbn; try tauto. intros [->|H]; [now left|right; eapply IH; exact H].
Qed.

(** ** A problem that starts after time 0 *)
Section Late.
Variable rr : list R -> list R.
Variable lg : nat -> vec * vec.
Variable u_other : string -> R -> Res vec.
Variable hermite : list R -> list vec -> list vec -> R -> vec.
Theorem late_start r order scheme_order x_interp u_interp n_interp x_c x_d_c u_c t0 tf :
  r_kind r = Equispaced x_c x_d_c u_c -> pyget (r_t r) 0%Z = Ok t0 -> pyget (r_t r) (-1)%Z = Ok tf ->
  length (r_t r) = length (r_x r) -> (2 <= length (r_x r))%nat ->
  (length (r_u r) = length (r_x r) \/ length (r_x r) = length (r_u r) + 1)%nat ->
  (1 <= order)%nat -> (mwidth (r_x r) mod order = 0)%nat -> (2 <= n_interp)%nat ->
  t0 < tf -> (tf - t0) / (INR (length (r_x r)) - 1) / 1000000000 < t0 ->
  interpolation1 rr lg u_other hermite r order scheme_order x_interp u_interp n_interp None = Err ValueError.
Proof.
  intros K E0 E1 LT LX LU HO HW HN T01 T0. unfold interpolation1. rewrite E0, E1. cbn [rbind].
  destruct (Nat.eqb_spec order 0); [lia|]. rewrite HW. cbn [Nat.eqb negb]. rewrite K. unfold rows_equi.
  set (h := (tf - t0) / (INR (length (r_t r)) - 1)). rewrite <- LT in T0. fold h in T0.
  set (sp := if contains "n" (r_scheme r) then _ else _).
  set (us := match u_interp with Some s => s | None => _ end).
  assert (E : interpolated_array u_other hermite (r_x r) (r_u r) h (linspace t0 tf n_interp) tt None (Some (r_x_d r)) (r_scheme r) us (Some sp) = Err ValueError);
    [|now rewrite E].
  unfold interpolated_array.
  destruct (negb (mem (r_scheme r) supported_schemes)); [reflexivity|].
  destruct (negb (mem us supported_u_schemes)); [reflexivity|].
  destruct (contains "j" (r_scheme r) && (us =? "parab")%string); [reflexivity|].
  destruct (contains "j" us && negb (contains "j" (r_scheme r))); [reflexivity|].
  match goal with |- (do _ <- ?e; _) = _ => assert (EO : e = Ok tt \/ e = Err ValueError) end.
  { destruct (_ || _); [|now left]. destruct (sp_order sp); auto. }
  destruct EO as [->| ->]; [|reflexivity]. cbn [rbind].
  assert (EP : prepare_interp (r_x r) (r_u r) h (linspace t0 tf n_interp) = Err ValueError); [|now rewrite EP].
  unfold prepare_interp.
  assert (EU : exists U', (if (length (r_x r) =? length (r_u r) + 1)%nat then extend_array (r_u r) else Ok (r_u r)) = Ok U' /\ length U' = length (r_x r)).
  { destruct (Nat.eqb_spec (length (r_x r)) (length (r_u r) + 1)) as [E|E].
    - unfold extend_array. rewrite (PwFacts.pyget_last (r_u r) []) by (intros C; rewrite C in E; simpl in E; lia). cbn [rbind].
      eexists; split; [reflexivity|]. rewrite app_length. simpl. lia.
    - exists (r_u r). split; auto. lia. }
  destruct EU as [U' [-> LU']]. cbn [rbind]. rewrite LU', Nat.eqb_refl. cbn [negb].
  rewrite (PwFacts.pyget_last (linspace t0 tf n_interp) 0).
  2:{ intros E. apply (f_equal (@length R)) in E. rewrite linspace_length in E. cbn in E. lia. }
  cbn [rbind]. rewrite (PwFacts.pyget_last _ 0).
  2:{ intros E. apply (f_equal (@length R)) in E. rewrite map_length, seq_length in E. cbn in E. lia. }
  cbn [rbind]. rewrite map_length, seq_length. rewrite (nth_map' _ _ _ 0%nat) by (rewrite seq_length; lia). rewrite seq_nth by lia. rewrite linspace_length.
  fold (vnth (linspace t0 tf n_interp) (n_interp - 1)). rewrite vnth_linspace by lia. rewrite Nat.add_0_l, minus_INR by lia.
  assert (0 < INR (n_interp - 1)) by (apply lt_0_INR; lia).
  assert (0 < INR (length (r_t r)) - 1).
  { apply (le_INR 2) in LX. rewrite LT. cbn [INR] in LX. lra. }
  destruct (Rlt_dec _ _) as [Y|N]; [reflexivity|]. exfalso. apply N. cbn [INR].
  eapply Rlt_le_trans; [exact T0|]. right.
  unfold h. rewrite <- LT. rewrite minus_INR in * by lia. cbn [INR] in *. field. lra.
Qed.

(** ** Schemes whose segments are not extended *)
Lemma row_pseudo_time scheme io M qq vv xx uu t0 tf ui xi t d : (1 <= M)%nat ->
  row_pseudo rr scheme io M qq vv xx uu t0 tf ui xi t = Ok d -> get KT d = Ok [t].
Proof.
  intros HM. unfold row_pseudo.
  match goal with |- (do _ <- ?e; _) = _ -> _ => destruct e as [[[[[[q qd] v] vd] qdd] u]|?]; cbn [rbind]; [|discriminate] end.
  match goal with |- (do _ <- ?e; _) = _ -> _ => destruct e as [[x x_d]|?]; cbn [rbind]; [|discriminate] end.
  match goal with |- (do _ <- ?e; _) = _ -> _ => destruct e as [ders|?] eqn:ED; cbn [rbind]; [|discriminate] end.
  apply PwInterpProofs.mapm_ok in ED. destruct ED as [LD _]. rewrite seq_length in LD.
  destruct (make_row_ok M (x :: x_d :: ders) u t HM) as (d' & E' & (G & _) & _); [cbn [length]; lia|].
  intros E. rewrite E' in E. injection E as <-. exact G.
Qed.
Lemma linspace_between a b n k : a <= b -> (k < n)%nat -> a <= vnth (linspace a b n) k <= b.
Proof.
  intros H Hk. rewrite vnth_linspace by exact Hk.
  destruct (Nat.eq_dec (n - 1) 0) as [E|E].
  - replace k with 0%nat by lia. cbn [INR]. lra.
  - assert (0 < INR (n - 1)) by (apply lt_0_INR; lia). assert (INR k <= INR (n - 1)) by (apply le_INR; lia). assert (0 <= INR k) by apply pos_INR.
    assert (0 <= (b - a) / INR (n - 1)) by (apply Rle_mult_inv_pos; lra).
    assert (INR (n - 1) * ((b - a) / INR (n - 1)) = b - a) by (field; lra). nra.
Qed.

Hypothesis OK : real_roots_ok rr.
Variables (p : ph_problem) (knots : vec) (ns : list nat) (w : ph_values).
Hypothesis LK : length ns = (length knots + 1)%nat.
Hypothesis T : ph_t_start p < ph_t_end p.
Hypothesis GK : good_knots (ph_t_start p) (ph_t_end p) knots.
Hypothesis HS : In (ph_scheme p) half_open.
Hypothesis HK : ph_kind p = Ph_ps.
Hypothesis HE : Forall (enough_points (ph_scheme p)) ns.
Notation tk := (knot_times (ph_t_start p) (ph_t_end p) knots).

Theorem not_extended r order scheme_order x_interp u_interp n rows segs :
  saved rr p knots ns w = Ok r ->
  interpolation_ph rr lg u_other hermite r order scheme_order x_interp u_interp n None = Ok (rows, segs) ->
  forall d, In d rows -> exists t, get KT d = Ok [t] /\ ph_t_start p < t < ph_t_end p.
Proof.
  assert (HA : In (ph_scheme p) all_schemes) by (destruct HS as [<-|[<-|[<-|[<-|[]]]]]; cbv; tauto).
  assert (ST : starts (ph_scheme p) = false /\ ends (ph_scheme p) = false /\
    mem (ph_scheme p) (gauss_like ++ gauss_inv ++ radau_inv) = false /\ mem (ph_scheme p) (gauss_like ++ gauss_inv ++ radau_like) = false)
    by (destruct HS as [<-|[<-|[<-|[<-|[]]]]]; repeat split).
  destruct ST as (S1 & S2 & S3 & S4).
  destruct (ph_t_col_ok rr OK p knots ns HA HE) as (taus & LT & Hc & Ecol).
  unfold saved. destruct (ph_t_arr rr p knots ns) as [t|e] eqn:Et; cbn [rbind]; [|discriminate]. rewrite Ecol. cbn [rbind].
  intros Er. injection Er as Er.
  assert (SB : forall s, (s < length ns)%nat -> exists a b, r_t (sub_problem r s) = nth s (h_t_col r) [] /\ (exists q v x, r_kind (sub_problem r s) = Pseudo q v x) /\
     pyget (r_t (sub_problem r s)) 0%Z = Ok a /\ pyget (r_t (sub_problem r s)) (-1)%Z = Ok b /\
     ph_t_start p < a /\ a <= b /\ b < ph_t_end p).
  { intros s Hs. destruct (Hc s Hs) as (Ec & Lc & c & IC & Ew). rewrite S1, S2 in IC, Ew. unfold with_ends in Ew. cbn [app] in Ew. rewrite app_nil_r in Ew. cbn [b2n] in IC. rewrite !Nat.sub_0_r in IC.
    assert (EC : nth s (h_t_col r) [] = tau_to_t_points c (vnth tk s) (vnth tk (s + 1))).
    { rewrite <- Er. cbn [h_t_col]. rewrite (nth_map' _ _ _ 0%nat) by now rewrite seq_length. rewrite seq_nth by exact Hs. cbn [Nat.add]. now rewrite Ew. }
    assert (NE : (1 <= nth s ns 0)%nat) by apply (nth_enough p ns HE s Hs).
    destruct IC as (LC & INC & BC).
    assert (TL : vnth tk s < vnth tk (s + 1)) by (apply (tk_lt p knots ns LK T GK s Hs)).
    assert (TB : ph_t_start p <= vnth tk s /\ vnth tk (s + 1) <= ph_t_end p).
    { assert (KI : forall j, (j <= length ns)%nat -> ph_t_start p <= vnth tk j <= ph_t_end p).
      { intros j Hj. unfold knot_times, vnth. destruct j as [|j]; [cbn [nth]; lra|]. cbn [nth].
        destruct (Nat.lt_ge_cases j (length knots)) as [Hlt|Hge].
        - rewrite app_nth1 by exact Hlt. destruct GK as [GK1 _]. rewrite Forall_forall in GK1. pose proof (GK1 _ (nth_In _ 0 Hlt)). lra.
        - rewrite app_nth2 by exact Hge. replace (j - length knots)%nat with 0%nat by lia. cbn [nth]. lra. }
      split; apply KI; lia. }
    assert (TT : forall i, (i < length c)%nat -> ph_t_start p < vnth (tau_to_t_points c (vnth tk s) (vnth tk (s + 1))) i < ph_t_end p).
    { intros i Hi. rewrite vnth_times by exact Hi. unfold tau_to_t. rewrite Forall_forall in BC. pose proof (BC _ (nth_In _ 0 Hi)) as Bi. fold (vnth c i) in Bi. nra. }
    assert (RT : r_t (sub_problem r s) = nth s (h_t_col r) []).
    { assert (ESc : h_scheme r = ph_scheme p) by (rewrite <- Er; reflexivity). unfold sub_problem. rewrite ESc, S3, S4. reflexivity. }
    set (ts := tau_to_t_points c (vnth tk s) (vnth tk (s + 1))) in *.
    assert (LTS : length ts = length c) by apply times_length.
    assert (N0 : ts <> []) by (intros C; rewrite C in LTS; cbn [length] in LTS; lia).
    exists (vnth ts 0), (vnth ts (length ts - 1)). split; [exact RT|]. split.
    { assert (EM : h_mode r = Ph_ps) by (rewrite <- Er; exact HK). assert (ESc : h_scheme r = ph_scheme p) by (rewrite <- Er; reflexivity).
      unfold sub_problem. rewrite ESc, S3, S4, EM. cbn [r_kind]. eauto. }
    rewrite RT, EC. split.
    { change 0%Z with (Z.of_nat 0). apply pyget_nat. lia. }
    split. { apply PwFacts.pyget_last. exact N0. }
    split; [apply TT; lia|]. split; [|apply TT; lia].
    destruct (Nat.eq_dec (length c) 1) as [E1|E1]; [rewrite LTS, E1; cbn; lra|].
    unfold ts. rewrite times_length. rewrite !vnth_times by lia. unfold tau_to_t.
    pose proof (INC 0%nat (length c - 1)%nat ltac:(lia)) as IN. nra. }
  unfold interpolation_ph.
  match goal with |- (do _ <- ?e; _) = _ -> _ => destruct e as [t0|?]; cbn [rbind]; [|discriminate] end.
  match goal with |- (do _ <- ?e; _) = _ -> _ => destruct e as [tf|?]; cbn [rbind]; [|discriminate] end.
  destruct (Nat.eqb_spec order 0) as [|HO]; [discriminate|].
  destruct (negb _) eqn:EW; [discriminate|].
  assert (EN : h_n_segments r = length ns) by (rewrite <- Er; reflexivity).
  match goal with |- (do _ <- ?e; _) = _ -> _ => destruct e as [interps|?] eqn:EI; cbn [rbind]; [|discriminate] end.
  intros E. injection E as E <-.
  apply PwInterpProofs.mapm_ok in EI. destruct EI as [LI HI]. rewrite seq_length in LI, HI. rewrite EN in LI, HI, E.
  assert (G : forall s d, (s < length ns)%nat -> In d (nth s interps []) -> exists t, get KT d = Ok [t] /\ ph_t_start p < t < ph_t_end p).
  { intros s d Hs Hd. specialize (HI s 0%nat [] Hs). rewrite seq_nth in HI by exact Hs. cbn [Nat.add rbind] in HI.
    unfold generate_sub_problems in HI. rewrite (nth_map' _ _ _ 0%nat) in HI by (rewrite seq_length, EN; exact Hs). rewrite seq_nth in HI by (rewrite EN; exact Hs). cbn [Nat.add] in HI.
    destruct (SB s Hs) as (a & b & _ & (qq & vv & xx & EK) & Ea & Eb & B1 & B2 & B3).
    unfold interpolation1 in HI. rewrite Ea, Eb in HI. cbn [rbind] in HI.
    destruct (Nat.eqb_spec order 0) as [|HO']; [discriminate|]. destruct (negb _) in HI; [discriminate|]. rewrite EK in HI.
    unfold rows_at in HI. destruct (enough_times _ _ _) in HI; [|discriminate].
    apply PwInterpProofs.mapm_ok in HI. destruct HI as [LR HR].
    apply (In_nth _ _ []) in Hd. destruct Hd as (k & Hk & <-). apply (fun H => Nat.lt_le_trans _ _ _ H (Nat.eq_le_incl _ _ LR)) in Hk. specialize (HR k 0 [] Hk).
    apply row_pseudo_time in HR; [|lia]. eexists. split; [exact HR|]. rewrite linspace_length in Hk.
    pose proof (linspace_between a b _ k B2 Hk) as LB. unfold vnth in LB. lra. }
  intros d Hd. rewrite <- E in Hd. apply in_app_or in Hd. destruct Hd as [Hd|Hd].
  - apply in_concat in Hd. destruct Hd as (l & Hl & Hd). apply in_map_iff in Hl. destruct Hl as (s & <- & Hs). apply in_seq in Hs.
    apply (G s); [lia|]. unfold butlastn in Hd. destruct (1 =? 0)%nat; [|eapply in_firstn; exact Hd]. now cbn in Hd.
  - apply (G (length ns - 1)%nat); [|exact Hd]. lia.
Qed.
End Late.
