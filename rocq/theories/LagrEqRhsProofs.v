From Coq Require Import String Lia Lra FunctionalExtensionality.
From Coquelicot Require Import Coquelicot.
From Verif Require Import Prelude PreludeFacts PwInterpModel SymModel SymSpec SymProofs LagrModel LagrSpec LagrFacts LagrProofs LagrRhsProofs LagrEqModel LagrEqSpec LagrEqProofs.
From Verif Require PwInterpProofs.
Open Scope R_scope.
Open Scope list_scope.

(** ** Names *)
Lemma symb_q i : symb_of (Dyn (q_name i) 0) = Static ("q_" ++ str_nat i)%string.
Proof. reflexivity. Qed.
Lemma symb_v i : symb_of (Dyn (q_name i) 1) = Static ("v_" ++ str_nat i)%string.
Proof. reflexivity. Qed.
Lemma symb_a i : symb_of (Dyn (q_name i) 2) = a_symb i.
Proof. reflexivity. Qed.
Lemma q_name_inj i j : q_name i = q_name j -> i = j.
Proof. unfold q_name. intros H. injection H as H. now apply str_nat_inj. Qed.
Lemma outside_rename f a b e : (forall c, In c (atoms e) -> f c = b -> c = a) -> outside a e -> outside b (rename f e).
Proof.
  induction e as [r|x|e1 IH1 e2 IH2|e1 IH1 e2 IH2|g k e IH]; cbn [rename outside atoms]; intros H; auto.
  - intros [H1 H2]. split; [apply IH1|apply IH2]; auto; intros c Hc; apply H, in_or_app; auto.
  - intros [H1 H2]. split; [apply IH1|apply IH2]; auto; intros c Hc; apply H, in_or_app; auto.
  - intros HN. rewrite atoms_rename, in_map_iff. intros (c & E & Hc). apply HN. rewrite <- (H c Hc E). exact Hc.
Qed.

Section Rhs.
Variables (simplify expand : expr -> expr) (D : env -> Prop).
Hypothesis Ks : keeps_values D simplify.
Hypothesis Ke : keeps_values D expand.
Hypothesis Do : line_open D.
Variables (T U : expr) (n : nat).
Hypothesis ST : smooth_on D T.
Hypothesis SU : smooth_on D U.
Hypothesis QT : of_state n T.
Hypothesis QU : of_state n U.
Hypothesis DD : depends_on (atoms T ++ atoms U) D.
Let L := Minus T U.
Let qs := map q_name (seq 0 n).
Lemma qs_len : length qs = n.
Proof. unfold qs. now rewrite map_length, seq_length. Qed.
Lemma qs_nth i : (i < n)%nat -> nth i qs ""%string = q_name i.
Proof. intros H. unfold qs. rewrite (nth_indep _ _ (q_name 0)) by (rewrite map_length, seq_length; auto). rewrite map_nth, seq_nth by auto. reflexivity. Qed.
Lemma qs_nodup : NoDup qs.
Proof. unfold qs. apply FinFun.Injective_map_NoDup; [intros i j; apply q_name_inj|apply seq_NoDup]. Qed.
Lemma L_atoms a : In a (atoms L) -> In a (atoms T ++ atoms U).
Proof. unfold L, Minus, Neg. cbn [atoms]. auto. Qed.
Lemma L_state : of_state n L.
Proof. intros a Ha. apply L_atoms in Ha. rewrite in_app_iff in Ha. destruct Ha; auto. Qed.
Lemma L_up_to : up_to 1 L.
Proof. intros m j Ha. destruct (L_state _ Ha) as [(s & E & _)|(i & k & Hi & Hk & E)]; [discriminate|]. injection E as -> ->. exact Hk. Qed.
(** Only accelerations are called a_j. *)
Lemma acc_name b j : (j < n)%nat -> In b (atoms L) \/ (exists m k, b = Dyn m (S k) /\ In (Dyn m k) (atoms L)) -> symb_of b = a_symb j -> b = Dyn (q_name j) 2.
Proof.
  intros Hj H E. destruct H as [H|(m & k & -> & H)].
  - destruct (L_state _ H) as [(s & -> & N)|(i & k & Hi & Hk & ->)].
    + rewrite symb_of_static in E. now elim (N j Hj).
    + destruct k as [|[|k]]; [| |lia]; [rewrite symb_q in E|rewrite symb_v in E]; unfold a_symb in E; discriminate.
  - destruct (L_state _ H) as [(s & E' & N)|(i & l & Hi & Hl & E')]; [discriminate|]. injection E' as -> ->.
    destruct l as [|[|l]]; [| |lia].
    + rewrite symb_v in E. discriminate.
    + rewrite symb_a in E. apply a_symb_inj in E. now subst i.
Qed.
Definition pulled (sigma : env) : env := fun b => sigma (symb_of b).
Definition hess (rho : env) (i j : nat) : R := eval rho (diff (qd qs 1 j) (diff (qd qs 1 i) L)).
Definition rest (rho : env) (i : nat) : R :=
  eval rho (qdd_zero qs (ddt (diff (qd qs 1 i) L))) + eval rho (diff time (diff (qd qs 1 i) L)) - eval rho (diff (qd qs 0 i) L).
Lemma plain_split rho i : (i < n)%nat ->
  eval rho (plain_eq L (q_name i) 0) = rsum n (fun j => hess rho i j * rho (Dyn (q_name j) 2)) + rest rho i.
Proof.
  intros Hi. unfold plain_eq. rewrite eval_Minus, ddt_t_split. unfold rest, qd. rewrite qs_nth by auto.
  rewrite (ddt_affine rho qs _ qs_nodup) by (apply up_to_diff, L_up_to). rewrite qs_len.
  rewrite (rsum_ext n _ (fun j => hess rho i j * rho (Dyn (q_name j) 2))); [ring|].
  intros j Hj. unfold hess, qd. rewrite !qs_nth by auto. ring.
Qed.
Lemma with_acc_same sigma y b : (forall j, (j < n)%nat -> symb_of b <> a_symb j) -> pulled (with_acc n sigma y) b = pulled sigma b.
Proof. intros H. unfold pulled. apply with_acc_out. exact H. Qed.
Lemma L_not_acc b j : In b (atoms L) -> (j < n)%nat -> symb_of b <> a_symb j.
Proof.
  intros Hb Hj E. apply (acc_name b j Hj (or_introl Hb)) in E. subst b. destruct (L_state _ Hb) as [(s & E & _)|(i & k & Hi & Hk & E)]; [discriminate|].
  injection E as E1 E2. lia.
Qed.
Lemma D_with_acc sigma y : D (pulled sigma) -> D (pulled (with_acc n sigma y)).
Proof.
  apply DD. intros a Ha. symmetry. apply with_acc_same. intros j Hj. apply L_not_acc; auto.
Qed.
Lemma qdd_zero_atoms e a : In a (atoms (qdd_zero qs e)) -> In a (atoms e) /\ ~ In a (map (fun m => Dyn m 2) qs).
Proof.
  induction e as [r|x|e1 IH1 e2 IH2|e1 IH1 e2 IH2|g k e IH]; cbn [qdd_zero atoms]; rewrite ?in_app_iff; try tauto.
  destruct (in_dec atom_eq_dec x (map (fun m => Dyn m 2) qs)); cbn [atoms In]; [tauto|]. intros [<-|[]]. auto.
Qed.
Lemma rest_same sigma y i : rest (pulled (with_acc n sigma y)) i = rest (pulled sigma) i.
Proof.
  assert (H : forall e, (forall a, In a (atoms e) -> In a (atoms L)) -> eval (pulled (with_acc n sigma y)) e = eval (pulled sigma) e).
  { intros e He. apply eval_ext. intros a Ha. apply with_acc_same. intros j Hj. apply L_not_acc; auto. }
  unfold rest. rewrite (H (diff time _)), (H (diff (qd qs 0 i) L)) by (intros a Ha; repeat apply atoms_diff in Ha; auto).
  do 2 f_equal. apply eval_ext. intros a Ha. apply qdd_zero_atoms in Ha. destruct Ha as [Ha Hn]. apply with_acc_same. intros j Hj E.
  apply (acc_name a j Hj) in E.
  - subst a. apply Hn. apply in_map_iff. exists (q_name j). split; [reflexivity|]. unfold qs. apply in_map, in_seq. lia.
  - apply atoms_ddt in Ha. destruct Ha as [Ha|(m & k & -> & Ha)]; [left|right; exists m, k; split; auto]; eapply atoms_diff, Ha.
Qed.
Lemma hess_same sigma y i j : hess (pulled (with_acc n sigma y)) i j = hess (pulled sigma) i j.
Proof.
  unfold hess. apply eval_ext. intros a Ha. apply with_acc_same. intros k Hk. apply L_not_acc; auto. do 2 apply atoms_diff in Ha. exact Ha.
Qed.
Lemma coords_nth i : (i < n)%nat -> nth i (coordinate_list (C_int n)) (Static "") = Dyn (q_name i) 0.
Proof.
  intros H. cbn [coordinate_list]. rewrite (nth_indep _ _ (Dyn (q_name 0) 0)) by (rewrite map_length, seq_length; auto).
  change (fun ii => Dyn ("q_" ++ str_nat ii) 0) with (fun ii => Dyn (q_name ii) 0). rewrite (map_nth (fun ii => Dyn (q_name ii) 0)), seq_nth by auto. reflexivity.
Qed.
Lemma coords_len : length (coordinate_list (C_int n)) = n.
Proof. cbn [coordinate_list]. now rewrite map_length, seq_length. Qed.
Variable eqs : list expr.
Hypothesis E : get_lagr_eqs simplify expand T U (C_int n) = Ok eqs.
Lemma eqs_len : length eqs = n.
Proof. rewrite <- coords_len. apply (PwInterpProofs.mapm_ok _ _ _ E). Qed.
Lemma eq_parts i : (i < n)%nat -> (forall rho, D rho -> eval rho (nth i eqs (Num 0)) = eval rho (plain_eq L (q_name i) 0)) /\
  (forall a, In a (atoms (nth i eqs (Num 0))) -> In a (atoms L) \/ exists m j, a = Dyn m (S j) /\ In (Dyn m j) (atoms L)) /\
  (forall a, ~ In a (atoms L) -> outside a (nth i eqs (Num 0))).
Proof.
  intros Hi. destruct (get_parts simplify expand D Ks Ke Do T U ST SU (C_int n) eqs i E) as (m & k & En & _ & H); [now rewrite coords_len|].
  rewrite coords_nth in En by auto. injection En as <- <-. exact H.
Qed.
Lemma nth_rename i : nth i (map (rename symb_of) eqs) (Num 0) = rename symb_of (nth i eqs (Num 0)).
Proof. change (Num 0) with (rename symb_of (Num 0)) at 1. apply map_nth. Qed.
Lemma eqs_linear : linear_in_acc (fun sigma => D (pulled sigma)) n (map (rename symb_of) eqs) (fun sigma => hess (pulled sigma)) (fun sigma => rest (pulled sigma)).
Proof.
  split; [intros; now apply D_with_acc|]. split.
  - intros sigma i Hd Hi. rewrite nth_rename, eval_rename. change (eval (fun a => sigma (symb_of a))) with (eval (pulled sigma)).
    rewrite (proj1 (eq_parts i Hi)) by auto. rewrite plain_split by auto. f_equal.
  - intros sigma y i Hd Hi. split; [apply rest_same|]. intros j Hj. apply hess_same.
Qed.
Lemma eqs_outside i j : (i < n)%nat -> (j < n)%nat -> outside (a_symb j) (nth i (map (rename symb_of) eqs) (Num 0)).
Proof.
  intros Hi Hj. rewrite nth_rename. destruct (eq_parts i Hi) as (_ & A & O). apply (outside_rename symb_of (Dyn (q_name j) 2)).
  - intros c Hc Ec. apply (acc_name c j Hj); auto.
  - apply O. intros H. pose proof (L_up_to _ _ H). lia.
Qed.

(** Right-hand sides. *)
Theorem equations_rhs inv orders rhs g t sigma : inverts inv ->
  (forall i, (i < n)%nat -> Forall (fun a => is_dyn a = true) (nth i orders []) /\
     (forall a, In a (atoms (nth i eqs (Num 0))) -> is_dyn a = true -> In a (nth i orders []))) ->
  lagr_to_RHS inv orders eqs = Ok rhs ->
  timed_motion g -> locally t (fun s => D (g s)) ->
  (forall a, In a (atoms T ++ atoms U) \/ (exists i k, (i < n)%nat /\ (k <= 2)%nat /\ a = Dyn (q_name i) k) -> sigma (symb_of a) = g t a) ->
  (exists B, inverse n (fun i j => partial (partial (fun r => eval r T - eval r U) (Dyn (q_name i) 1)) (Dyn (q_name j) 1) (g t)) B) ->
  length rhs = n /\
  ((forall i, (i < n)%nat -> lagrange_value (fun r => eval r T - eval r U) (q_name i) 0 g t = sigma (u_symb i)) <->
   (forall j, (j < n)%nat -> g t (Dyn (q_name j) 2) = eval sigma (nth j rhs (Num 0)))).
Proof.
  intros Hinv Hord Hr Hm Hl Hs [B HB]. assert (Hd : D (g t)) by (apply (locally_singleton _ _ Hl)).
  assert (EL : (fun r : env => eval r T - eval r U) = (fun r : env => eval r L)) by (apply functional_extensionality; intros r; symmetry; apply eval_Minus).
  assert (SL : smooth_on D L) by (now apply on_Minus).
  assert (Hn := eqs_len).
  assert (Hd' : D (pulled sigma)). { revert Hd. apply DD. intros a Ha. symmetry. apply Hs. now left. }
  assert (HH : forall i j, (i < n)%nat -> (j < n)%nat -> hess (pulled sigma) i j = partial (partial (fun r => eval r L) (Dyn (q_name i) 1)) (Dyn (q_name j) 1) (g t)).
  { intros i j Hi Hj. transitivity (eval (g t) (diff (qd qs 1 j) (diff (qd qs 1 i) L))).
    - unfold hess. apply eval_ext. intros a Ha. do 2 apply atoms_diff in Ha. apply Hs. left. now apply L_atoms.
    - unfold qd. rewrite !qs_nth by auto. rewrite <- partial_diff by (apply smooth_diff; auto). unfold partial at 1 2. apply Derive_ext_loc.
      destruct (Do (g t) (unit_env (Dyn (q_name j) 1)) Hd) as [eps He]. exists eps. intros x Hx. symmetry. apply partial_diff, SL.
      specialize (He (x - g t (Dyn (q_name j) 1))). replace (upd (g t) (Dyn (q_name j) 1) x) with (fun a => g t a + (x - g t (Dyn (q_name j) 1)) * unit_env (Dyn (q_name j) 1) a).
      + apply He. unfold ball in *. cbn in *. unfold AbsRing_ball, abs, minus, plus, opp in *. cbn in *. now rewrite Ropp_0, Rplus_0_r.
      + apply functional_extensionality. intros a. unfold unit_env, upd. destruct (atom_eq_dec a (Dyn (q_name j) 1)) as [->|]; ring. }
  destruct (lagr_to_RHS_solves inv orders eqs rhs (fun s => D (pulled s)) (fun s => hess (pulled s)) (fun s => rest (pulled s)) Hinv) as [Lr Sr].
  - rewrite Hn. exact Hord.
  - rewrite Hn. exact eqs_linear.
  - rewrite Hn. exact eqs_outside.
  - exact Hr.
  - rewrite Hn in Lr, Sr. split; [exact Lr|].
    specialize (Sr sigma Hd'). assert (HB' : exists B, inverse n (hess (pulled sigma)) B).
    { exists B. rewrite EL in HB. destruct HB as [H1 H2]. split; intros i j Hi Hj; [rewrite <- (H1 i j) by auto|rewrite <- (H2 i j) by auto];
        apply rsum_ext; intros l Hl'; rewrite HH; auto. }
    specialize (Sr HB' (fun j => g t (Dyn (q_name j) 2))). rewrite <- Sr. rewrite EL.
    assert (X : forall i, (i < n)%nat -> eval (fun b => with_acc n sigma (fun j => g t (Dyn (q_name j) 2)) (symb_of b)) (nth i eqs (Num 0)) =
      lagrange_value (fun r => eval r L) (q_name i) 0 g t).
    { intros i Hi. destruct (eq_parts i Hi) as (V & A & _). rewrite <- (plain_motion D L (q_name i) 0 g t SL Hm Hl), <- V by auto.
      apply eval_ext. intros b Hb.
      assert (Hsb : sigma (symb_of b) = g t b).
      { apply Hs. destruct (A b Hb) as [H|(m & k & -> & H)]; [left; now apply L_atoms|right].
        destruct (L_state _ H) as [(s & E' & _)|(l & k' & Hl' & Hk & E')]; [discriminate|]. injection E' as -> ->. exists l, (S k'). repeat split; auto; lia. }
      destruct (List.find (fun k => if atom_eq_dec (a_symb k) (symb_of b) then true else false) (seq 0 n)) as [k|] eqn:F.
      - apply find_some in F. destruct F as [Hk F]. apply in_seq in Hk. destruct (atom_eq_dec (a_symb k) (symb_of b)) as [E'|]; [|discriminate].
        rewrite <- E', with_acc_in by lia. rewrite <- Hsb, <- E', <- symb_a. symmetry. apply Hs. right. exists k, 2%nat. repeat split; lia.
      - unfold with_acc. rewrite F. exact Hsb. }
    split; intros H i Hi; specialize (H i Hi); rewrite X in * by auto; exact H.
Qed.
End Rhs.
