(** dynamic_error_implicit does return, for every scheme of order 2. *)
From Coq Require Import String.
From Verif Require Import Prelude PreludeFacts Mat MatFacts PwModel PwFacts PwSpec PwSchemeProofs PwMotionProofs PwInterpModel PwInterpSpec PwInterpProofs PwLiveProofs
  AnalysisModel AnalysisSpec AnalysisPhProofs AnalysisPwProofs AnalysisLiveProofs AnalysisPtModel AnalysisPtSpec AnalysisPtProofs.
Open Scope R_scope.
Open Scope vec_scope.
Open Scope list_scope.

Section Live.
Variable u_other : string -> R -> Res vec.
Variable hermite : list R -> list vec -> list vec -> R -> vec.
Variable solve : mat -> vec -> vec.
Context {P : Type}.
Variable M : vec -> P -> mat.
Variable F_impl : vec -> vec -> P -> vec.
Variable p : P.
Variable n : nat.
Hypothesis Hsolve : forall x u, length x = (2 * n)%nat -> length (solve (M x p) (F_impl x u p)) = n.
Notation G := (solved_dynamics solve M F_impl).
Notation F := (implicit_F solve M F_impl 2).
Definition wide (x : vec) : Prop := length x = (2 * n)%nat.
Lemma F_wide x u : wide x -> F x u p = Ok (G x u p).
Proof. intros W. apply implicit_F_even. rewrite (Hsolve x u W). exact W. Qed.
Lemma G_wide x u : wide x -> wide (G x u p).
Proof. intros W. destruct (solved_order solve M F_impl p n Hsolve x u W) as [L _]. exact L. Qed.
Variable scheme : string.
Hypothesis Hscheme : In scheme ["trapz"; "trapz_mod"; "trapz_n"; "hs"; "hs_parab"; "hs_mod"; "hs_mod_parab"; "hsj"; "hsj_parab"]%string.
Ltac each := destruct Hscheme as [<-|[<-|[<-|[<-|[<-|[<-|[<-|[<-|[<-|[]]]]]]]]]].
Definition good (sp : sparams) : Prop := (scheme = "trapz_n"%string -> sp_order sp = Some 2%nat) /\ sp_x_c sp = None /\ forall XC, sp_x_dot_c sp = Some XC -> Forall wide XC.
Lemma pyget_wide X k x : Forall wide X -> pyget X k = Ok x -> wide x.
Proof.
  intros H. unfold pyget. destruct (_ || _); [discriminate|].
  destruct (nth_error X _) as [y|] eqn:E; [|discriminate]. intros Ex. injection Ex as <-. apply nth_error_In in E. revert E. apply Forall_forall. exact H.
Qed.
Lemma half : Nat.div (2 * n) 2 = n.
Proof. rewrite Nat.mul_comm. apply Nat.div_mul. lia. Qed.
Lemma scheme_wide sp k x x_n xd xdn tau h y : good sp -> wide x -> wide x_n -> wide xd -> wide xdn ->
  interp_scheme scheme sp k x x_n xd xdn tau h = Ok y -> wide y.
Proof.
  intros (G1 & _ & G3) W1 W2 W3 W4. unfold wide in *.
  assert (C : forall y', (do XC <- getkey (sp_x_dot_c sp); do xdc <- pyget XC k; y' xdc) = Ok y -> exists xdc, wide xdc /\ y' xdc = Ok y).
  { intros y'. destruct (sp_x_dot_c sp) as [XC|]; cbn [getkey rbind]; [|discriminate]. destruct (pyget XC k) as [xdc|] eqn:E; cbn [rbind]; [|discriminate].
    intros H. exists xdc. split; [|exact H]. apply (pyget_wide XC k); [apply G3; reflexivity|exact E]. }
  each; unfold interp_scheme, mem; cbn [String.eqb Ascii.eqb Bool.eqb mem existsb orb].
  - intros E; injection E as <-. rewrite (tz_interp_length 1 (2 * n)); lia.
  - intros E; injection E as <-. rewrite (tz_interp_length 2 n); lia.
  - rewrite G1 by reflexivity. intros E; injection E as <-. rewrite (tz_interp_length 2 n); lia.
  - intros E. apply C in E. destruct E as (xdc & W & E). injection E as <-. unfold wide in W. rewrite (hs_interp_length 1 (2 * n)); lia.
  - intros E. apply C in E. destruct E as (xdc & W & E). injection E as <-. unfold wide in W. rewrite (hs_interp_length 1 (2 * n)); lia.
  - intros E. apply C in E. destruct E as (xdc & W & E). injection E as <-. unfold wide in W. rewrite (hs_interp_length 2 n); lia.
  - intros E. apply C in E. destruct E as (xdc & W & E). injection E as <-. unfold wide in W. rewrite (hs_interp_length 2 n); lia.
  - intros E. apply C in E. destruct E as (xdc & W & E). injection E as <-. now apply (hsj_interp_lengths n h x x_n xd xdn xdc).
  - intros E. apply C in E. destruct E as (xdc & W & E). injection E as <-. now apply (hsj_interp_lengths n h x x_n xd xdn xdc).
Qed.
Lemma der_scheme_wide d sp k x x_n xd xdn tau h y : good sp -> wide x -> wide x_n -> wide xd -> wide xdn ->
  interp_der_scheme scheme d sp k x x_n xd xdn tau h = Ok y -> wide y.
Proof.
  intros (G1 & _ & G3) W1 W2 W3 W4. unfold wide in *.
  assert (C : forall y', (do XC <- getkey (sp_x_dot_c sp); do xdc <- pyget XC k; y' xdc) = Ok y -> exists xdc, wide xdc /\ y' xdc = Ok y).
  { intros y'. destruct (sp_x_dot_c sp) as [XC|]; cbn [getkey rbind]; [|discriminate]. destruct (pyget XC k) as [xdc|] eqn:E; cbn [rbind]; [|discriminate].
    intros H. exists xdc. split; [|exact H]. apply (pyget_wide XC k); [apply G3; reflexivity|exact E]. }
  each; unfold interp_der_scheme, mem; cbn [String.eqb Ascii.eqb Bool.eqb mem existsb orb].
  - intros E; injection E as <-. rewrite (tz_interp_length 1 (2 * n)); lia.
  - intros E; injection E as <-. rewrite (tz_interp_length 2 n); lia.
  - rewrite G1 by reflexivity. intros E; injection E as <-. rewrite (tz_interp_length 2 n); lia.
  - intros E. apply C in E. destruct E as (xdc & W & E). injection E as <-. unfold wide in W. rewrite (hs_interp_length 1 (2 * n)); lia.
  - intros E. apply C in E. destruct E as (xdc & W & E). injection E as <-. unfold wide in W. rewrite (hs_interp_length 1 (2 * n)); lia.
  - intros E. apply C in E. destruct E as (xdc & W & E). injection E as <-. unfold wide in W. rewrite (hs_interp_length 2 n); lia.
  - intros E. apply C in E. destruct E as (xdc & W & E). injection E as <-. unfold wide in W. rewrite (hs_interp_length 2 n); lia.
  - intros E. apply C in E. destruct E as (xdc & W & E). destruct (hsj_interp_lengths n h x x_n xd xdn xdc W1 W3 W4 W tau) as (_ & A & B).
    destruct (d =? 1)%nat; [injection E as <-; exact A|]. destruct (d =? 2)%nat; [injection E as <-; exact B|discriminate].
  - intros E. apply C in E. destruct E as (xdc & W & E). destruct (hsj_interp_lengths n h x x_n xd xdn xdc W1 W3 W4 W tau) as (_ & A & B).
    destruct (d =? 1)%nat; [injection E as <-; exact A|]. destruct (d =? 2)%nat; [injection E as <-; exact B|discriminate].
Qed.
Lemma midpoint_wide x x_n xd xdn h : wide x -> wide x_n -> wide xd -> wide xdn -> wide (midpoint_of scheme x x_n xd xdn h).
Proof.
  unfold wide. intros W1 W2 W3 W4. unfold midpoint_of. destruct (contains "mod" scheme); [|destruct (contains "j" scheme)].
  - unfold hs_mod_midpoint, vec_len. rewrite W1, half. len.
  - unfold hsj_midpoint, vec_len. rewrite W1, half. len.
  - unfold hs_midpoint. len.
Qed.
Lemma newpoint_wide X Xd h t sp x : good sp -> Forall wide X -> Forall wide Xd -> newpoint X Xd h t scheme sp = Ok x -> wide x.
Proof.
  intros HG H1 H2. unfold newpoint. destruct (_ <? _)%Z; [discriminate|].
  destruct (Rlt_dec _ _); [now apply pyget_wide|]. destruct (Rlt_dec _ _); [now apply pyget_wide|].
  destruct (pyget X _) as [a|] eqn:Ea; cbn [rbind]; [|discriminate]. destruct (pyget X _) as [b|] eqn:Eb in |- *; cbn [rbind]; [|discriminate].
  destruct (pyget Xd _) as [c|] eqn:Ec; cbn [rbind]; [|discriminate]. destruct (pyget Xd (_ + 1)%Z) as [d|] eqn:Ed in |- *; cbn [rbind]; [|discriminate].
  apply pyget_wide in Ea; [|exact H1]. apply pyget_wide in Eb; [|exact H1]. apply pyget_wide in Ec; [|exact H2]. apply pyget_wide in Ed; [|exact H2].
  now apply scheme_wide.
Qed.
Lemma newpoint_der_wide X Xd h t d sp x : good sp -> Forall wide X -> Forall wide Xd -> newpoint_der X Xd h t scheme d sp = Ok x -> wide x.
Proof.
  intros HG H1 H2. unfold newpoint_der. destruct (if Rlt_dec _ _ then _ else _) as [k tau]. destruct (_ <=? _)%Z; [discriminate|].
  destruct (pyget X k) as [a|] eqn:Ea; cbn [rbind]; [|discriminate]. destruct (pyget X (k + 1)%Z) as [b|] eqn:Eb; cbn [rbind]; [|discriminate].
  destruct (pyget Xd k) as [c|] eqn:Ec; cbn [rbind]; [|discriminate]. destruct (pyget Xd (k + 1)%Z) as [e|] eqn:Ed; cbn [rbind]; [|discriminate].
  apply pyget_wide in Ea; [|exact H1]. apply pyget_wide in Eb; [|exact H1]. apply pyget_wide in Ec; [|exact H2]. apply pyget_wide in Ed; [|exact H2].
  now apply der_scheme_wide.
Qed.
Lemma mapm_Forall {A B} (f : A -> Res B) (Q : B -> Prop) l r : (forall a b, In a l -> f a = Ok b -> Q b) -> mapm f l = Ok r -> Forall Q r.
Proof.
  revert r. induction l as [|a l IH]; intros r H; cbn [mapm]; [intros E; injection E as <-; constructor|].
  destruct (f a) as [b|] eqn:E; cbn [rbind]; [|discriminate]. destruct (mapm f l) as [bs|] eqn:E2; cbn [rbind]; [|discriminate].
  intros E3. injection E3 as <-. constructor; [now apply (H a b); [left|]|]. apply IH; [|reflexivity]. intros c d Hc. apply H. now right.
Qed.
Lemma dynamics_back A V l r : Forall wide A ->
  mapm (fun i => do x <- pyget A (Z.of_nat i); do u <- pyget V (Z.of_nat i); Ok (G x u p)) l = Ok r ->
  mapm (fun i => do x <- pyget A (Z.of_nat i); do u <- pyget V (Z.of_nat i); F x u p) l = Ok r /\ Forall wide r.
Proof.
  intros HA E. split; revert E.
  - apply mapm_imp. intros i b _.
    destruct (pyget A (Z.of_nat i)) as [x|] eqn:EX; cbn [rbind]; [|discriminate]. destruct (pyget V (Z.of_nat i)) as [u|]; cbn [rbind]; [|discriminate].
    rewrite F_wide; [auto|]. revert EX. now apply pyget_wide.
  - apply mapm_Forall. intros i b _.
    destruct (pyget A (Z.of_nat i)) as [x|] eqn:EX; cbn [rbind]; [|discriminate]. destruct (pyget V (Z.of_nat i)) as [u|]; cbn [rbind]; [|discriminate].
    intros E. injection E as <-. apply G_wide. revert EX. now apply pyget_wide.
Qed.
Lemma missing_back X U h us sp r : good sp -> Forall wide X -> calculate_missing X U h p (Some G) None scheme us sp = Ok r ->
  calculate_missing_r X U h p F None scheme us sp = Ok r /\ Forall wide (fst r) /\ good (snd r).
Proof.
  intros HG HX. unfold calculate_missing, calculate_missing_r.
  match goal with |- (do Xd <- mapm ?f ?l; _) = _ -> _ => destruct (mapm f l) as [xd|] eqn:E; cbn [rbind]; [|discriminate] end.
  destruct (dynamics_back _ _ _ _ HX E) as [-> HD]. cbn [rbind].
  destruct (contains "hs" scheme && negb (scheme =? "hs_scipy")%string); [|intros H; injection H as <-; auto].
  destruct (sp_x_dot_c sp) as [XC|] eqn:EXC; [intros H; injection H as <-; auto|].
  destruct HG as (G1 & G2 & G3). rewrite G2.
  match goal with |- (do Xd <- mapm ?f ?l; _) = _ -> _ => destruct (mapm f l) as [xc|] eqn:EM; cbn [rbind]; [|discriminate] end.
  assert (HC : Forall wide xc).
  { revert EM. apply mapm_Forall. intros i b _.
    destruct (pyget X (Z.of_nat i)) as [a1|] eqn:E1; cbn [rbind]; [|discriminate]. destruct (pyget X (Z.of_nat (i + 1))) as [a2|] eqn:E2; cbn [rbind]; [|discriminate].
    destruct (pyget xd (Z.of_nat i)) as [a3|] eqn:E3; cbn [rbind]; [|discriminate]. destruct (pyget xd (Z.of_nat (i + 1))) as [a4|] eqn:E4; cbn [rbind]; [|discriminate].
    apply pyget_wide in E1; [|exact HX]. apply pyget_wide in E2; [|exact HX]. apply pyget_wide in E3; [|exact HD]. apply pyget_wide in E4; [|exact HD].
    intros H. injection H as <-. now apply midpoint_wide. }
  set (sp1 := match sp_u_c sp with Some _ => _ | None => _ end).
  assert (S1 : (scheme = "trapz_n"%string -> sp_order sp1 = Some 2%nat) /\ sp_x_c sp1 = None).
  { unfold sp1. destruct (sp_u_c sp); [auto|]. destruct (contains "parab" us); cbn [sp_order sp_x_c]; auto. }
  destruct (getkey (sp_u_c sp1)) as [uc|]; cbn [rbind]; [|discriminate].
  match goal with |- (do Xd <- mapm ?f ?l; _) = _ -> _ => destruct (mapm f l) as [xdc|] eqn:EC; cbn [rbind]; [|discriminate] end.
  destruct (dynamics_back _ _ _ _ HC EC) as [-> HDC]. cbn [rbind]. intros H. split; [exact H|]. injection H as <-. cbn [fst snd]. split; [exact HD|].
  destruct S1 as [S1 S2]. repeat split; cbn [sp_order sp_x_c sp_x_dot_c]; auto. intros XC E0. injection E0 as <-. exact HDC.
Qed.
Lemma array_back X U h ts us sp r : good sp -> Forall wide X -> interpolated_array u_other hermite X U h ts p (Some G) None scheme us (Some sp) = Ok r ->
  interpolated_array_r u_other hermite X U h ts p F None scheme us sp = Ok r /\ Forall wide (fst (fst r)) /\ length (fst (fst r)) = length ts /\ good (snd r).
Proof.
  intros HG HX. unfold interpolated_array_r, interpolated_array.
  destruct (negb (mem scheme supported_schemes)); [discriminate|]. destruct (negb (mem us supported_u_schemes)); [discriminate|].
  destruct (contains "j" scheme && (us =? "parab")%string); [discriminate|]. destruct (contains "j" us && negb (contains "j" scheme)); [discriminate|].
  destruct (if contains "hsn" scheme || contains "trapz_n" scheme then _ else _); cbn [rbind]; [|discriminate].
  destruct (prepare_interp X U h ts) as [[U' old]|]; cbn [rbind]; [|discriminate].
  destruct (calculate_missing X U' h p (Some G) None scheme us sp) as [[Xd' sp1]|] eqn:E; cbn [rbind]; [|discriminate].
  destruct (missing_back _ _ _ _ _ _ HG HX E) as (-> & HD & HG1). cbn [rbind fst snd] in *.
  destruct (interpolate_u u_other U' old ts us sp1); cbn [rbind]; [|discriminate].
  assert (ES : (scheme =? "hs_scipy")%string = false) by (each; reflexivity). rewrite ES.
  destruct (mapm _ ts) as [nX|] eqn:EN; cbn [rbind]; [|discriminate]. intros H. split; [exact H|]. injection H as <-. cbn [fst snd].
  split; [|split; [now destruct (PwInterpProofs.mapm_ok _ _ _ EN) as [L _]|exact HG1]]. revert EN. apply mapm_Forall. intros t b _. now apply newpoint_wide.
Qed.
Lemma derivative_back X U h ts d sp r : good sp -> Forall wide X -> interpolated_array_derivative X U h ts p (Some G) None scheme d (Some sp) = Ok r ->
  interpolated_array_derivative_r X U h ts p F None scheme d sp = Ok r /\ Forall wide (fst r) /\ length (fst r) = length ts.
Proof.
  intros HG HX. unfold interpolated_array_derivative_r, interpolated_array_derivative. destruct (negb (mem scheme supported_schemes)); [discriminate|].
  destruct (prepare_interp X U h ts) as [[U' old]|]; cbn [rbind]; [|discriminate].
  destruct (calculate_missing X U' h p (Some G) None scheme "None" sp) as [[Xd' sp1]|] eqn:E; cbn [rbind]; [|discriminate].
  destruct (missing_back _ _ _ _ _ _ HG HX E) as (-> & HD & HG1). cbn [rbind fst snd] in *.
  assert (ES : (scheme =? "hs_scipy")%string = false) by (each; reflexivity). rewrite ES.
  destruct (mapm _ ts) as [nX|] eqn:EN; cbn [rbind]; [|discriminate]. intros H. split; [exact H|]. injection H as <-. cbn [fst].
  split; [|now destruct (PwInterpProofs.mapm_ok _ _ _ EN) as [L _]]. revert EN. apply mapm_Forall. intros t b _. now apply newpoint_der_wide.
Qed.
Theorem implicit_live X U t_end n_interp mode : (0 < n)%nat -> 0 < t_end -> (2 <= length X)%nat -> (forall x, In x X -> length x = (2 * n)%nat) ->
  (length U = length X \/ length X = (length U + 1)%nat) -> (1 <= n_interp)%nat -> In mode ["q"; "x"]%string ->
  exists r, dynamic_error_implicit u_other hermite solve X U t_end p F_impl M None scheme "lin" None n_interp 2 mode = Ok r.
Proof.
  intros Hn HT LX SX LU HI HM.
  assert (HX : Forall wide X) by (apply Forall_forall; exact SX).
  assert (SB : exists Mb, scheme_blocks scheme (Some 2%nat) = Some Mb) by (each; eexists; reflexivity).
  destruct SB as [Mb SB].
  destruct (dynamic_error_live G p u_other hermite scheme Mb 2 t_end X U None n_interp mode) as [r Er]; auto.
  { discriminate. }
  { intros d Hd. unfold dmax_of. destruct (contains "j" scheme); [exact Hd|exact I]. }
  exists r. revert Er. unfold dynamic_error_implicit, dynamic_error.
  set (sp' := Build_sparams _ _ _ _). set (h := t_end / _). set (ts := linspace 0 t_end n_interp).
  destruct (interpolated_array u_other hermite X U h ts p (Some G) None scheme "lin" (Some sp')) as [[[nX nU] sp1]|] eqn:E; cbn [rbind]; [|discriminate].
  assert (HG : good sp') by (repeat split; cbn; auto; discriminate).
  destruct (array_back _ _ _ _ _ _ _ HG HX E) as (-> & HN & LNX & HG1). cbn [rbind fst snd] in *. unfold ts in LNX. rewrite linspace_length in LNX.
  match goal with |- (do ders <- mapm ?f ?l; _) = _ -> _ => destruct (mapm f l) as [ders|e] eqn:ED; cbn [rbind]; [|discriminate] end.
  assert (EW : (mwidth X / 2)%nat = n).
  { destruct X as [|x X']; [cbn in LX; lia|]. change (mwidth (x :: X')) with (length x). rewrite (SX x) by now left. rewrite Nat.mul_comm. now apply Nat.div_mul. }
  match goal with |- _ -> (do ders <- mapm ?f ?l; _) = _ => assert (ED2 : mapm f l = Ok ders) end.
  { revert ED. apply mapm_imp. intros jj a _. destruct (interpolated_array_derivative X U h ts p (Some G) None scheme jj (Some sp1)) as [[b s]|] eqn:EJ; cbn [rbind]; [|discriminate].
    destruct (derivative_back _ _ _ _ _ _ _ HG1 HX EJ) as [-> _]. auto. }
  assert (HDW : Forall (fun a => Forall wide a /\ length a = n_interp) ders).
  { revert ED. apply mapm_Forall. intros jj a _. destruct (interpolated_array_derivative X U h ts p (Some G) None scheme jj (Some sp1)) as [[b s]|] eqn:EJ; cbn [rbind]; [|discriminate].
    destruct (derivative_back _ _ _ _ _ _ _ HG1 HX EJ) as [_ W]. intros Ea. injection Ea as <-. cbn [fst] in W. unfold ts in W. rewrite linspace_length in W. exact W. }
  assert (LD : length ders = 2%nat). { destruct (PwInterpProofs.mapm_ok _ _ _ ED) as [L _]. now rewrite seq_length in L. }
  rewrite ED2. cbn [rbind]. clear ED ED2. rewrite EW.
  match goal with |- (do errs <- mapm ?f ?l; _) = _ -> _ => destruct (mapm f l) as [errs|e] eqn:EE; cbn [rbind]; [|discriminate] end.
  match goal with |- _ -> (do errs <- mapm ?f ?l; _) = _ => assert (EE2 : mapm f l = Ok errs) end.
  { revert EE. apply mapm_imp. intros k b Hk. apply in_seq in Hk. cbv zeta.
    assert (WX : wide (nth k nX [])). { apply Forall_forall with (x := nth k nX []) in HN; [exact HN|apply nth_In; lia]. }
    match goal with |- (do _ <- ?e; _) = _ -> _ => destruct e as [xin|] eqn:EX; cbn [rbind]; [|discriminate] end.
    rewrite F_wide; [auto|]. destruct HM as [<-|[<-|[]]]; cbn [String.eqb Ascii.eqb Bool.eqb] in EX; injection EX as <-; [|exact WX].
    destruct ders as [|d0 [|d1 [|]]]; try discriminate LD. destruct (Forall_inv HDW) as [W0 L0]. assert (WD : wide (nth k d0 [])) by (apply Forall_forall with (x := nth k d0 []) in W0; [exact W0|apply nth_In; lia]). cbn [seq flat_map map nth].
    unfold wide in *. rewrite !app_nil_r, !app_length.
    rewrite !(nth_get_x_divisions _ 2 n) by (assumption || lia). rewrite skipn_length, WX.
    unfold slice. rewrite !firstn_length, !skipn_length, WX, WD. change (fst (Nat.divmod (2 * n) 1 0 1)) with (Nat.div (2 * n) 2). replace (Nat.div (2 * n) 2) with n by (rewrite Nat.mul_comm, Nat.div_mul; lia). lia. }
  rewrite EE2. auto.
Qed.
End Live.
