(** The interpolation drivers do return on valid data (C12, C13). *)
From Coquelicot Require Import Coquelicot.
From Coq Require Import String.
From Verif Require Import Prelude PreludeFacts Poly PolyFacts PwModel PwInterpModel PwFacts PwSpec PwInterpSpec PwSchemeProofs PwAccelProofs PwMotionProofs PwDynProofs PwStepProofs PwInterpProofs PwMoreProofs.
Open Scope R_scope.
Open Scope vec_scope.

Lemma newpoint_ok X Xd h scheme sp :
  0 < h -> (2 <= length X)%nat -> length Xd = length X ->
  (forall i x x_n xd xdn tau, (i + 1 < length X)%nat -> exists y,
     interp_scheme scheme sp (Z.of_nat i) x x_n xd xdn tau h = Ok y) ->
  forall t, 0 <= t <= (INR (length X) - 1) * h -> exists y, newpoint X Xd h t scheme sp = Ok y.
Proof.
  intros Hh HX HXd Hs t Ht.
  pose proof snap_pos as S1. pose proof snap_small as S2.
  pose proof (seg_bounds t h Hh) as B. pose proof (seg_time t h) as E.
  set (z := seg_index t h) in *. set (tau := seg_tau t h) in *. clearbody z tau.
  assert (Hz0 : (0 <= z)%Z).
  { assert (IZR (-1) < IZR z) as HH by nra. apply lt_IZR in HH. lia. }
  assert (Hz1 : (z < Z.of_nat (length X))%Z).
  { apply lt_IZR. rewrite <- INR_IZR_INZ. nra. }
  assert (Ez : z = Z.of_nat (Z.to_nat z)) by lia. set (i := Z.to_nat z) in *. clearbody i.
  subst z. rewrite <- INR_IZR_INZ in E.
  destruct (Rlt_dec tau (h * snap)) as [Hlo|Hlo].
  { eexists. apply (newpoint_snap X Xd h t scheme sp i); auto; [lia|]. rewrite Rabs_pos_eq; lra. }
  destruct (Nat.eq_dec i (length X - 1)) as [->|Hne].
  { exfalso. rewrite minus_INR in E by lia. change (INR 1) with 1 in E. nra. }
  destruct (Rlt_dec (h - tau) (h * snap)) as [Hhi|Hhi].
  { eexists. apply (newpoint_snap X Xd h t scheme sp (S i)); auto; [lia|]. rewrite S_INR. rewrite Rabs_left1; lra. }
  rewrite (newpoint_segment X Xd h t scheme sp i); [|auto|lia|auto|lra].
  apply Hs. lia.
Qed.

Lemma mapm_succeeds {A B} (f : A -> Res B) l : (forall a, In a l -> exists b, f a = Ok b) -> exists r, mapm f l = Ok r.
Proof.
  induction l as [|a l IH]; simpl; intros H; [eauto|].
  destruct (H a (or_introl eq_refl)) as [b ->]. destruct IH as [r ->]; auto. simpl. eauto.
Qed.

Section Live.
  Context {P : Type}.
  Variable F : vec -> vec -> P -> vec.
  Variable p : P.
  Variable u_other : string -> R -> Res vec.
  Variable hermite : list R -> list vec -> list vec -> R -> vec.

  Lemma missing_succeeds X U h scheme u_scheme sp :
    length U = length X -> sp_x_dot_c sp = None -> sp_x_c sp = None ->
    contains "parab" u_scheme = false ->
    (forall c, sp_u_c sp = Some c -> (length X <= length c + 1)%nat) ->
    exists r, calculate_missing X U h p (Some F) None scheme u_scheme sp = Ok r.
  Proof.
    intros HU H1 H2 Hp Hc. unfold calculate_missing.
    destruct (mapm_succeeds (fun i => do x <- pyget X (Z.of_nat i); do u <- pyget U (Z.of_nat i); Ok (F x u p)) (seq 0 (length X))) as [Xd EX].
    { intros i Hi. apply in_seq in Hi. rewrite (pyget_nat X i []), (pyget_nat U i []) by lia. eexists. reflexivity. }
    rewrite EX. cbn [rbind]. apply mapm_ok in EX. destruct EX as [LX _]. rewrite seq_length in LX.
    destruct (contains "hs" scheme && negb (scheme =? "hs_scipy")%string); [|eauto].
    rewrite H1, H2.
    match goal with |- exists r, rbind (mapm ?f ?l) _ = Ok r => destruct (mapm_succeeds f l) as [Xc EC] end.
    { intros i Hi. apply in_seq in Hi.
      rewrite (pyget_nat X i []), (pyget_nat X (i + 1) []), (pyget_nat Xd i []), (pyget_nat Xd (i + 1) []) by lia.
      eexists. reflexivity. }
    rewrite EC. cbn [rbind]. apply mapm_ok in EC. destruct EC as [LC _]. rewrite seq_length in LC.
    rewrite Hp.
    set (sp2 := match sp_u_c sp with None => _ | Some _ => sp end).
    assert (HUc : exists Uc, sp_u_c sp2 = Some Uc /\ (length X <= length Uc + 1)%nat).
    { unfold sp2. destruct (sp_u_c sp) as [c|] eqn:Ec.
      - exists c. rewrite Ec. auto.
      - eexists. split; [reflexivity|].
        destruct (contains "j" scheme); unfold mid_controls; rewrite map2_length, butlast1_length, skipn_length; lia. }
    destruct HUc as [Uc [EU LU]]. rewrite EU. cbn [getkey rbind].
    match goal with |- exists r, rbind (mapm ?f ?l) _ = Ok r => destruct (mapm_succeeds f l) as [XDC ED] end.
    { intros i Hi. apply in_seq in Hi. rewrite (pyget_nat Xc i []), (pyget_nat Uc i []) by lia. eexists. reflexivity. }
    rewrite ED. cbn [rbind]. eauto.
  Qed.

  Lemma interp_scheme_ok scheme sp1 order M N i x x_n xd xdn tau h :
    scheme_blocks scheme order = Some M -> sp_order sp1 = order ->
    (contains "hs" scheme = true -> exists XC, sp_x_dot_c sp1 = Some XC /\
       forall i, (i + 1 < N)%nat -> exists v, pyget XC (Z.of_nat i) = Ok v) ->
    (i + 1 < N)%nat -> exists y, interp_scheme scheme sp1 (Z.of_nat i) x x_n xd xdn tau h = Ok y.
  Proof.
    intros Hb Ho Hc Hi. unfold scheme_blocks in Hb. simpl in Hb.
    repeat match type of Hb with
      | context [if ((scheme =? ?b)%string || _)%bool then _ else _] =>
          destruct (String.eqb_spec scheme b);
          [subst scheme; unfold interp_scheme; simpl;
           try (destruct (Hc eq_refl) as [XC [E1 E2]]; destruct (E2 i Hi) as [v Ev]; rewrite E1; simpl; rewrite Ev);
           eexists; reflexivity|]; simpl in Hb
      end.
    destruct (String.eqb_spec scheme "trapz_n"); [|discriminate].
    subst scheme. unfold interp_scheme. simpl. rewrite Ho, Hb. eexists. reflexivity.
  Qed.

  (** With linear controls, every query inside the horizon is answered. *)
  Lemma driver_succeeds scheme M h X U ts sp :
    scheme_blocks scheme (sp_order sp) = Some M -> 0 < h -> (2 <= length X)%nat ->
    (length U = length X \/ length X = (length U + 1)%nat) ->
    sp_x_dot_c sp = None -> sp_x_c sp = None ->
    (forall c, sp_u_c sp = Some c -> (length X <= length c + 1)%nat) ->
    ts <> [] -> (forall t, In t ts -> 0 <= t <= (INR (length X) - 1) * h) ->
    exists r, interpolated_array u_other hermite X U h ts p (Some F) None scheme "lin" (Some sp) = Ok r.
  Proof.
    intros Hb Hh HL HU H1 H2 Hc Hne Hts.
    assert (Hsci := scheme_not_scipy _ _ _ Hb).
    assert (Hm : mem scheme supported_schemes = true /\ (contains "hsn" scheme || contains "trapz_n" scheme = true -> sp_order sp <> None)).
    { unfold scheme_blocks in Hb. simpl in Hb.
      repeat match type of Hb with
      | context [if ((scheme =? ?b)%string || _)%bool then _ else _] =>
          destruct (String.eqb_spec scheme b); [subst scheme; split; [reflexivity|intros Hf; discriminate Hf]|]; simpl in Hb
      end.
      destruct (String.eqb_spec scheme "trapz_n"); [|discriminate]. subst scheme. split; [reflexivity|].
      intros _. rewrite Hb. discriminate. }
    destruct Hm as [Hm1 Hm2].
    unfold interpolated_array. rewrite Hm1. change (mem "lin" supported_u_schemes) with true. cbn [negb].
    change ("lin" =? "parab")%string with false. rewrite andb_false_r.
    change (contains "j" "lin") with false. cbn [andb].
    assert (EO : exists v, (if contains "hsn" scheme || contains "trapz_n" scheme then
        match sp_order sp with None => Err ValueError | Some _ => Ok tt end else Ok tt) = Ok v).
    { destruct (contains "hsn" scheme || contains "trapz_n" scheme); eauto.
      destruct (sp_order sp); eauto. exfalso. now apply Hm2. }
    destruct EO as [v ->]. cbn [rbind].
    assert (EP : exists U' ot, prepare_interp X U h ts = Ok (U', ot)).
    { unfold prepare_interp.
      assert (EU : exists U', (if (length X =? length U + 1)%nat then extend_array U else Ok U) = Ok U' /\ length U' = length X).
      { destruct (Nat.eqb_spec (length X) (length U + 1)) as [E|E].
        - unfold extend_array. rewrite (pyget_last U []) by (intros ->; simpl in E; lia). cbn [rbind].
          eexists; split; [reflexivity|]. rewrite app_length. simpl. lia.
        - exists U. split; auto. lia. }
      destruct EU as [U' [-> LU]]. cbn [rbind]. rewrite LU, Nat.eqb_refl. cbn [negb].
      rewrite (pyget_last ts 0) by auto. cbn [rbind].
      rewrite (pyget_last _ 0).
      2:{ intros E. apply (f_equal (@length R)) in E. rewrite map_length, seq_length in E. simpl in E. lia. }
      cbn [rbind]. rewrite map_length, seq_length.
      rewrite (nth_map' _ _ _ 0%nat) by (rewrite seq_length; lia). rewrite seq_nth by lia.
      destruct (Rlt_dec _ _) as [Y|_]; [|eauto]. exfalso.
      assert (Hin : In (nth (length ts - 1) ts 0) ts).
      { apply nth_In. destruct ts; simpl; [congruence|lia]. }
      apply Hts in Hin. rewrite Nat.add_0_l, minus_INR in Y by lia. change (INR 1) with 1 in Y.
      assert (0 < h / 1000000000) by (apply Rdiv_lt_0_compat; lra). lra. }
    destruct EP as [U' [ot EP]]. rewrite EP. cbn [rbind].
    apply prepare_ok in EP. destruct EP as [_ [LU Eot]].
    destruct (missing_succeeds X U' h scheme "lin" sp LU H1 H2 eq_refl Hc) as [[Xd sp1] EM].
    rewrite EM. cbn [rbind]. apply missing_ok in EM; auto. destruct EM as [LXd [_ [Ho Hxc]]].
    unfold interpolate_u. change ("lin" =? "lin")%string with true. cbn iota.
    destruct (mapm_succeeds (np_interp_rows ot U') ts) as [nU ->].
    { intros t _. unfold np_interp_rows. subst ot. destruct X as [|x0 X0]; [simpl in HL; lia|].
      destruct U' as [|u0 U0]; [simpl in LU; lia|]. simpl. eexists. reflexivity. }
    cbn [rbind]. apply String.eqb_neq in Hsci. rewrite Hsci.
    destruct (mapm_succeeds (fun t => newpoint X Xd h t scheme sp1) ts) as [nX ->].
    { intros t Ht. apply newpoint_ok; auto. intros i x x_n xd xdn tau Hi.
      apply (interp_scheme_ok scheme sp1 (sp_order sp) M (length X)); auto.
      intros E. destruct (Hxc E) as [XC [E1 E2]]. exists XC. split; auto. intros j Hj. rewrite E2 by auto. eauto. }
    cbn [rbind]. eauto.
  Qed.
End Live.
