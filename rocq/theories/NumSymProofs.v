From Coq Require Import String Ascii Permutation.
From Verif Require Import Prelude PreludeFacts Mat MatFacts PwInterpModel SymModel SymSpec SymProofs FuncDynModel FuncDynSpec CasModel CasSpec CasProofs CasRhsProofs CasNameProofs CasDynProofs NumSymModel.
From Verif Require NumpyModel NumpySpec NumpyProofs PsBaryProofs.
Open Scope R_scope.
Open Scope list_scope.
Notation A1 := NumpyModel.A1.
Notation A2 := NumpyModel.A2.
Notation scalar_value := NumpySpec.scalar_value.

Lemma position_iff a vars : (exists i, position a vars = Ok i) <-> In a vars.
Proof.
  induction vars as [|b vars IH]; cbn [position In]; [split; [intros [i H]; discriminate|tauto]|].
  destruct (atom_eq_dec a b) as [->|N]; [split; eauto|].
  split.
  - intros [i H]. right. apply IH. destruct (position a vars); cbn in H; [eauto|discriminate].
  - intros [H|H]; [congruence|]. apply IH in H. destruct H as [i ->]. cbn. eauto.
Qed.
Lemma position_value a vars i (val : atom -> R) : position a vars = Ok i -> vnth (map val vars) i = val a /\ (i < length vars)%nat.
Proof.
  revert i; induction vars as [|b vars IH]; intros i; cbn [position]; [discriminate|].
  destruct (atom_eq_dec a b) as [->|N]; [intros H; injection H as <-; cbn; split; auto; lia|].
  destruct (position a vars) as [j|]; cbn [rbind]; [|discriminate]. intros H; injection H as <-. destruct (IH j eq_refl) as [A B].
  cbn [map length]. split; [exact A|lia].
Qed.
Lemma position_first a vars rest i k : position a (vars ++ rest) = Ok i -> length vars = k -> ((i < k)%nat <-> In a vars).
Proof.
  revert i k; induction vars as [|b vars IH]; intros i k; cbn [position app length]; intros H <-.
  - split; [lia|intros []].
  - destruct (atom_eq_dec a b) as [->|N]; [injection H as <-; split; [cbn; auto|lia]|].
    destruct (position a (vars ++ rest)) as [j|] eqn:E; cbn [rbind] in H; [|discriminate]. injection H as <-.
    rewrite <- Nat.succ_lt_mono, (IH j _ eq_refl eq_refl). cbn [In]. intuition congruence.
Qed.
Lemma np_iff vars e : (exists e', np_expr vars e = Ok e') <-> incl (atoms e) vars.
Proof.
  induction e as [r|a|e1 IH1 e2 IH2|e1 IH1 e2 IH2|f k e IH]; cbn [np_expr atoms].
  - split; [intros _ x []|eauto].
  - rewrite <- (position_iff a vars) || idtac. split.
    + intros [e' H]. intros b [<-|[]]. apply position_iff. destruct (position a vars); cbn in H; [eauto|discriminate].
    + intros H. destruct (proj2 (position_iff a vars)) as [i ->]; [apply H; cbn; auto|cbn; eauto].
  - split.
    + intros [e' H]. destruct (np_expr vars e1); cbn in H; [|discriminate]. destruct (np_expr vars e2); cbn in H; [|discriminate].
      apply incl_app; [apply IH1; eauto|apply IH2; eauto].
    + intros H. apply incl_app_inv in H. destruct H as [A B]. apply IH1 in A. apply IH2 in B. destruct A as [? ->], B as [? ->]. cbn; eauto.
  - split.
    + intros [e' H]. destruct (np_expr vars e1); cbn in H; [|discriminate]. destruct (np_expr vars e2); cbn in H; [|discriminate].
      apply incl_app; [apply IH1; eauto|apply IH2; eauto].
    + intros H. apply incl_app_inv in H. destruct H as [A B]. apply IH1 in A. apply IH2 in B. destruct A as [? ->], B as [? ->]. cbn; eauto.
  - rewrite <- IH. split; intros [e' H]; [destruct (np_expr vars e); cbn in H; [eauto|discriminate]|rewrite H; cbn; eauto].
Qed.
Lemma np_value vars e e' val : np_expr vars e = Ok e' -> scalar_value (map val vars) e' = eval val e.
Proof.
  revert e'; induction e as [r|a|e1 IH1 e2 IH2|e1 IH1 e2 IH2|f k e IH]; cbn [np_expr]; intros e' H.
  - injection H as <-. reflexivity.
  - destruct (position a vars) as [i|] eqn:E; cbn in H; [|discriminate]. injection H as <-. cbn. apply (position_value _ _ _ val E).
  - destruct (np_expr vars e1) as [a|]; cbn in H; [|discriminate]. destruct (np_expr vars e2) as [b|]; cbn in H; [|discriminate]. injection H as <-.
    cbn. rewrite (IH1 _ eq_refl), (IH2 _ eq_refl). reflexivity.
  - destruct (np_expr vars e1) as [a|]; cbn in H; [|discriminate]. destruct (np_expr vars e2) as [b|]; cbn in H; [|discriminate]. injection H as <-.
    cbn. rewrite (IH1 _ eq_refl), (IH2 _ eq_refl). reflexivity.
  - destruct (np_expr vars e) as [a|]; cbn in H; [|discriminate]. injection H as <-. cbn. rewrite (IH _ eq_refl). reflexivity.
Qed.
Lemma np_uses vars rest e e' k : np_expr (vars ++ rest) e = Ok e' -> length vars = k -> (NumpySpec.uses_first k e' = true <-> exists a, In a (atoms e) /\ In a vars).
Proof.
  intros H L. revert e' H; induction e as [r|a|e1 IH1 e2 IH2|e1 IH1 e2 IH2|f j e IH]; cbn [np_expr atoms]; intros e' H.
  - injection H as <-. cbn. split; [discriminate|intros (a & [] & _)].
  - destruct (position a (vars ++ rest)) as [i|] eqn:E; cbn in H; [|discriminate]. injection H as <-. cbn [NumpySpec.uses_first].
    rewrite Nat.ltb_lt, (position_first _ _ _ _ _ E L). split; [exists a; cbn; auto|intros (b & [<-|[]] & B); auto].
  - destruct (np_expr (vars ++ rest) e1) as [a|]; cbn in H; [|discriminate]. destruct (np_expr (vars ++ rest) e2) as [b|]; cbn in H; [|discriminate]. injection H as <-.
    cbn [NumpySpec.uses_first]. rewrite orb_true_iff, (IH1 _ eq_refl), (IH2 _ eq_refl). setoid_rewrite in_app_iff. firstorder.
  - destruct (np_expr (vars ++ rest) e1) as [a|]; cbn in H; [|discriminate]. destruct (np_expr (vars ++ rest) e2) as [b|]; cbn in H; [|discriminate]. injection H as <-.
    cbn [NumpySpec.uses_first]. rewrite orb_true_iff, (IH1 _ eq_refl), (IH2 _ eq_refl). setoid_rewrite in_app_iff. firstorder.
  - destruct (np_expr (vars ++ rest) e) as [a|]; cbn in H; [|discriminate]. injection H as <-. cbn [NumpySpec.uses_first]. apply IH; auto.
Qed.
Lemma lambdify_iff vars e : (exists e', lambdify vars e = Ok e') <-> NoDup vars /\ incl (atoms e) vars.
Proof.
  unfold lambdify. rewrite <- nodup_b_iff. destruct (nodup_b vars); cbn [negb].
  - rewrite np_iff. tauto.
  - split; [intros [? ?]; discriminate|intros [? _]; discriminate].
Qed.
Lemma lambdify_np vars e e' : lambdify vars e = Ok e' -> np_expr vars e = Ok e'.
Proof. unfold lambdify. destruct (negb _); [discriminate|auto]. Qed.
Lemma lambdify_values vars l l' val : mapm (lambdify vars) l = Ok l' -> map (scalar_value (map val vars)) l' = map (eval val) l.
Proof.
  revert l'; induction l as [|e l IH]; cbn [mapm]; intros l' H; [injection H as <-; reflexivity|].
  destruct (lambdify vars e) as [e'|] eqn:E; cbn [rbind] in H; [|discriminate]. destruct (mapm (lambdify vars) l) as [l''|]; cbn [rbind] in H; [|discriminate].
  injection H as <-. cbn [map]. rewrite (np_value _ _ _ _ (lambdify_np _ _ _ E)), (IH _ eq_refl). reflexivity.
Qed.

Section Orders.
Variable dyn_order : expr -> list atom.
Variable sym_order : expr -> list string.
Hypothesis IT : iterates dyn_order sym_order.
Notation normal := (normal dyn_order sym_order).
Notation arguments_of := (arguments_of dyn_order sym_order).
Notation to_casadi := (rhs_to_casadi_function dyn_order sym_order).
Notation to_numpy := (RHS2numpy dyn_order sym_order).
Notation Sym2Fx := (Sym2Fx dyn_order sym_order).

Definition all_args (r : arguments) : list atom := (r_q r ++ r_v r) ++ r_u r ++ map Static (r_params r).
Lemma to_numpy_eq RHS Q U mode : to_numpy RHS Q U mode =
  (do RHS' <- mapm normal RHS; do r <- arguments_of RHS Q U false false;
   do funcs <- rhs_funcs_of r RHS' mode;
   do outs <- mapm (lambdify (all_args r)) funcs;
   Ok (with_args (if (mode =? "x")%string then 3 else 4) (NumpyModel.new_F (length (all_args r)) outs))).
Proof.
  unfold RHS2numpy. destruct (mapm normal RHS) as [RHS'|] eqn:E; cbn [rbind]; auto.
  rewrite (arguments_again _ _ IT _ _ Q U false false E). destruct (arguments_of RHS Q U false false) as [r|]; cbn [rbind]; auto.
Qed.
(** The same right-hand sides are accepted as for casadi. *)
Theorem numpy_iff RHS Q U mode : RHS <> [] -> ((exists F, to_numpy RHS Q U mode = Ok F) <-> (exists f, to_casadi RHS Q U mode = Ok f)).
Proof.
  intros NE. rewrite to_numpy_eq, (to_casadi_eq _ _ IT). destruct (mapm normal RHS) as [RHS'|]; cbn [rbind]; [|split; intros [? ?]; discriminate].
  destruct (arguments_of RHS Q U false false) as [r|]; cbn [rbind]; [|split; intros [? ?]; discriminate].
  destruct (rhs_funcs_of r RHS' mode) as [funcs|]; cbn [rbind]; [|split; intros [? ?]; discriminate].
  assert (G : (exists o, mapm (lambdify (all_args r)) funcs = Ok o) <-> exists o, mapm (fun f => sympy2casadi f (g_vars (groups_of r mode)) (g_cas (groups_of r mode))) funcs = Ok o).
  { rewrite !mapm_ok_iff. split; intros H a Ha; specialize (H a Ha).
    - apply sympy2casadi_iff. rewrite groups_vars. apply lambdify_iff in H. exact H.
    - apply lambdify_iff. apply sympy2casadi_iff in H. rewrite groups_vars in H. exact H. }
  split.
  - intros [F H]. destruct (mapm (lambdify (all_args r)) funcs) as [o|]; cbn [rbind] in H; [|discriminate]. destruct (proj1 G (ex_intro _ _ eq_refl)) as [o' ->]. cbn; eauto.
  - intros [F H]. destruct (mapm (fun f => sympy2casadi f _ _) funcs) as [o|]; cbn [rbind] in H; [|discriminate]. destruct (proj2 G (ex_intro _ _ eq_refl)) as [o' ->]. cbn; eauto.
Qed.
Lemma numpy_parts RHS Q U mode F : to_numpy RHS Q U mode = Ok F -> exists r funcs outs,
  arguments_of RHS Q U false false = Ok r /\ rhs_funcs_of r (map (rename called) RHS) mode = Ok funcs /\ mapm (lambdify (all_args r)) funcs = Ok outs /\
  F = with_args (if (mode =? "x")%string then 3 else 4) (NumpyModel.new_F (length (all_args r)) outs).
Proof.
  rewrite to_numpy_eq. destruct (mapm normal RHS) as [RHS'|] eqn:E; cbn [rbind]; [|discriminate]. destruct (normals _ _ IT _ _ E) as [-> _].
  destruct (arguments_of RHS Q U false false) as [r|]; cbn [rbind]; [|discriminate].
  destruct (rhs_funcs_of r _ mode) as [funcs|] eqn:Ef; cbn [rbind]; [|discriminate].
  destruct (mapm (lambdify (all_args r)) funcs) as [outs|] eqn:Eo; cbn [rbind]; [|discriminate]. intros H; injection H as <-. exists r, funcs, outs. auto.
Qed.
Lemma funcs_nonempty r RHS mode funcs : RHS <> [] -> length (r_v r) = length (r_q r) -> rhs_funcs_of r RHS mode = Ok funcs -> funcs <> [].
Proof.
  intros NE LV. assert (L0 : length RHS <> 0%nat) by (destruct RHS; cbn; congruence).
  unfold rhs_funcs_of. destruct (mode =? "x")%string; [|destruct (mode =? "q")%string; [|discriminate]].
  - destruct (_ =? _)%nat; [intros H; injection H as <-; destruct (r_v r); [exact NE|discriminate]|]. destruct (_ =? _)%nat; [intros H; injection H as <-; auto|discriminate].
  - destruct (_ =? _)%nat; [intros H; injection H as <-; auto|]. destruct (length RHS =? _)%nat eqn:E; [|discriminate]. intros H F.
    assert (EL : length funcs = (length RHS - length RHS / 2)%nat) by (injection H as <-; apply skipn_length). rewrite F in EL. cbn in EL.
    change (fst (Nat.divmod (length RHS) 1 0 1)) with (length RHS / 2)%nat in EL. pose proof (Nat.div_lt (length RHS) 2). lia.
Qed.
Lemma lambdify_length vars l l' : mapm (lambdify vars) l = Ok l' -> length l' = length l.
Proof. apply mapm_len. Qed.
Lemma all_args_length RHS Q U r : arguments_of RHS Q U false false = Ok r -> length (all_args r) = (2 * length (r_q r) + (length (r_u r) + length (r_params r)))%nat.
Proof.
  intros H. unfold all_args. rewrite !app_length, map_length, (proj1 (arguments_lengths _ _ _ _ _ _ _ _ H)). lia.
Qed.
(** On vectors it is the casadi function. *)
Theorem numpy_casadi_x RHS Q U F f : RHS <> [] -> to_numpy RHS Q U "x" = Ok F -> to_casadi RHS Q U "x" = Ok f ->
  forall x u p y, cas_call f [x; u; p] = Ok y -> F [A1 x; A1 u; A1 p] = Ok (A1 y).
Proof.
  intros NE HF Hf x u p y Hy. destruct (numpy_parts _ _ _ _ _ HF) as (r & funcs & outs & Hr & Efu & Eo & ->). pose proof (sizes_x _ _ IT _ _ _ _ _ Hr Hf) as Sz.
  assert (SZ : map (@length R) [x; u; p] = cf_sizes f).
  { destruct (list_eq_dec Nat.eq_dec (map (@length R) [x; u; p]) (cf_sizes f)); auto. rewrite cas_sizes in Hy by auto. discriminate. }
  rewrite Sz in SZ. cbn [map] in SZ. injection SZ as Lx Lu Lp.
  pose proof (proj1 (arguments_lengths _ _ _ _ _ _ _ _ Hr)) as LV.
  destruct (every_argument _ _ IT _ _ _ _ _ _ x u p NE Hr Hf) as (val & Ex & Eu & Ep); auto.
  assert (EV : concat [x; u; p] = map val (all_args r)).
  { cbn [concat]. rewrite app_nil_r. unfold all_args. rewrite (map_app val (r_q r ++ r_v r)), (map_app val (r_u r)), map_static, <- Ex, <- Eu, <- Ep. reflexivity. }
  unfold with_args. cbn [length Nat.eqb String.eqb Ascii.eqb Bool.eqb].
  replace (length (all_args r)) with (length (concat [x; u; p])) by (rewrite EV; apply map_length).
  change [A1 x; A1 u; A1 p] with (map A1 [x; u; p]). rewrite NumpyProofs.new_F_vector.
  - rewrite EV, (lambdify_values _ _ _ _ Eo). destruct (to_casadi_value _ _ IT _ _ _ _ _ _ Hr Hf) as (funcs' & E' & V). rewrite Efu in E'. injection E' as <-.
    specialize (V val). unfold groups_of in V. cbn [map app snd String.eqb Ascii.eqb Bool.eqb] in V. rewrite map_static, <- Ex, <- Eu, <- Ep, Hy in V. injection V as ->. reflexivity.
  - intros ->. apply lambdify_length in Eo. destruct funcs; [|discriminate]. eapply (funcs_nonempty r (map (rename called) RHS)); eauto. destruct RHS; [congruence|discriminate].
Qed.
Theorem numpy_casadi_q RHS Q U F f : RHS <> [] -> to_numpy RHS Q U "q" = Ok F -> to_casadi RHS Q U "q" = Ok f ->
  forall q v u p y, cas_call f [q; v; u; p] = Ok y -> F [A1 q; A1 v; A1 u; A1 p] = Ok (A1 y).
Proof.
  intros NE HF Hf q v u p y Hy. destruct (numpy_parts _ _ _ _ _ HF) as (r & funcs & outs & Hr & Efu & Eo & ->). pose proof (sizes_q _ _ IT _ _ _ _ _ Hr Hf) as Sz.
  assert (SZ : map (@length R) [q; v; u; p] = cf_sizes f).
  { destruct (list_eq_dec Nat.eq_dec (map (@length R) [q; v; u; p]) (cf_sizes f)); auto. rewrite cas_sizes in Hy by auto. discriminate. }
  rewrite Sz in SZ. cbn [map] in SZ. injection SZ as Lq Lv Lu Lp.
  pose proof (proj1 (arguments_lengths _ _ _ _ _ _ _ _ Hr)) as LV.
  destruct (every_argument _ _ IT _ _ _ _ _ _ (q ++ v) u p NE Hr Hf) as (val & Ex & Eu & Ep); auto; [rewrite app_length; lia|].
  assert (EV : concat [q; v; u; p] = map val (all_args r)).
  { cbn [concat]. rewrite app_nil_r, (app_assoc q). unfold all_args. rewrite (map_app val (r_q r ++ r_v r)), (map_app val (r_u r)), map_static, <- Ex, <- Eu, <- Ep. reflexivity. }
  assert (G : q = map val (r_q r) /\ v = map val (r_v r)).
  { rewrite map_app in Ex. clear -Ex Lq. revert Ex Lq. generalize (r_q r). induction q as [|z q IH]; intros [|b l] E L; try discriminate; auto.
    cbn in E. injection E as -> E. destruct (IH l E) as [-> ->]; auto. }
  destruct G as [Eq Ev].
  unfold with_args. cbn [length Nat.eqb String.eqb Ascii.eqb Bool.eqb].
  replace (length (all_args r)) with (length (concat [q; v; u; p])) by (rewrite EV; apply map_length).
  change [A1 q; A1 v; A1 u; A1 p] with (map A1 [q; v; u; p]). rewrite NumpyProofs.new_F_vector.
  - rewrite EV, (lambdify_values _ _ _ _ Eo). destruct (to_casadi_value _ _ IT _ _ _ _ _ _ Hr Hf) as (funcs' & E' & V). rewrite Efu in E'. injection E' as <-.
    specialize (V val). unfold groups_of in V. cbn [map app snd String.eqb Ascii.eqb Bool.eqb] in V. rewrite map_static, <- Eq, <- Ev, <- Eu, <- Ep, Hy in V. injection V as ->. reflexivity.
  - intros ->. apply lambdify_length in Eo. destruct funcs; [|discriminate]. eapply (funcs_nonempty r (map (rename called) RHS)); eauto. destruct RHS; [congruence|discriminate].
Qed.
(** Only the total number of entries is checked. *)
Theorem numpy_total RHS Q U F : RHS <> [] -> to_numpy RHS Q U "x" = Ok F ->
  forall x u p x' u' p', x ++ u ++ p = x' ++ u' ++ p' -> F [A1 x; A1 u; A1 p] = F [A1 x'; A1 u'; A1 p'].
Proof.
  intros NE HF x u p x' u' p' E. destruct (numpy_parts _ _ _ _ _ HF) as (r & funcs & outs & Hr & Efu & Eo & ->).
  unfold with_args. cbn [length Nat.eqb String.eqb Ascii.eqb Bool.eqb]. unfold NumpyModel.new_F.
  change [A1 x; A1 u; A1 p] with (map A1 [x; u; p]). change [A1 x'; A1 u'; A1 p'] with (map A1 [x'; u'; p']). rewrite !NumpyProofs.unpack_vectors.
  cbn [concat]. rewrite !app_nil_r, E. reflexivity.
Qed.
(** On arrays of samples, row by row. *)
Theorem numpy_samples RHS Q U F f r : to_numpy RHS Q U "x" = Ok F -> to_casadi RHS Q U "x" = Ok f -> RHS <> [] -> arguments_of RHS Q U false false = Ok r ->
  (forall e, In e RHS -> exists a, In a (atoms e) /\ In (called a) (r_q r ++ r_v r ++ r_u r)) ->
  forall n X Uc p, n <> 1%nat -> shaped n (2 * length (r_q r)) X -> shaped n (length (r_u r)) Uc -> length p = length (r_params r) ->
  exists Y, F [A2 (2 * length (r_q r)) X; A2 (length (r_u r)) Uc; A1 p] = Ok (A2 (2 * length (r_q r)) Y) /\ length Y = n /\
  forall i, (i < n)%nat -> cas_call f [mrow i X; mrow i Uc; p] = Ok (mrow i Y).
Proof.
  intros HF Hf NE Hr Hs n X Uc p N1 SX SU Lp. destruct (numpy_parts _ _ _ _ _ HF) as (r' & funcs & outs & Hr' & Efu & Eo & ->). rewrite Hr in Hr'. injection Hr' as <-.
  pose proof (proj1 (arguments_lengths _ _ _ _ _ _ _ _ Hr)) as LV.
  destruct (to_casadi_value _ _ IT _ _ _ _ _ _ Hr Hf) as (funcs' & E' & V). rewrite Efu in E'. injection E' as <-.
  assert (NF : funcs <> []) by (eapply (funcs_nonempty r (map (rename called) RHS)); eauto; destruct RHS; [congruence|discriminate]).
  assert (NO : outs <> []) by (intros ->; apply lambdify_length in Eo; destruct funcs; [congruence|discriminate]).
  assert (SV : forall i, (i < n)%nat -> exists val, mrow i X = map val (r_q r ++ r_v r) /\ mrow i Uc = map val (r_u r) /\ p = map (fun s => val (Static s)) (r_params r)).
  { intros i Hi. apply (every_argument _ _ IT _ _ _ _ _ _ (mrow i X) (mrow i Uc) p NE Hr Hf); auto.
    - apply (shaped_row _ _ _ _ SX Hi). - apply (shaped_row _ _ _ _ SU Hi). }
  assert (LF : length funcs = (2 * length (r_q r))%nat).
  { destruct (proj1 (to_casadi_iff _ _ IT _ _ _ _ _ NE Hr) (ex_intro _ _ Hf)) as (_ & LR & _). clear -Efu LR LV.
    unfold rhs_funcs_of in Efu. cbn [String.eqb Ascii.eqb Bool.eqb] in Efu. rewrite map_length in Efu. destruct (Nat.eqb_spec (length (r_q r)) (length RHS)).
    - injection Efu as <-. rewrite app_length, !map_length. lia.
    - destruct (_ =? _)%nat; [|discriminate]. injection Efu as <-. rewrite map_length. lia. }
  assert (UF : Forall (fun e => NumpySpec.uses_first (2 * length (r_q r) + length (r_u r)) e = true) outs).
  { apply Forall_forall. intros o Ho. destruct (In_nth_error _ _ Ho) as [k Hk].
    assert (exists fn, In fn funcs /\ lambdify (all_args r) fn = Ok o) as (fn & Hfn & El).
    { clear -Eo Ho. revert outs Eo Ho. induction funcs as [|e l IH]; cbn [mapm]; intros outs Eo Ho; [injection Eo as <-; destruct Ho|].
      destruct (lambdify (all_args r) e) as [e'|] eqn:E; cbn [rbind] in Eo; [|discriminate]. destruct (mapm _ l) as [l'|] eqn:E2; cbn [rbind] in Eo; [|discriminate].
      injection Eo as <-. destruct Ho as [<-|Ho]; [exists e; cbn; auto|]. destruct (IH _ eq_refl Ho) as (fn & A & B). exists fn; cbn; auto. }
    apply lambdify_np in El. assert (EA : all_args r = (r_q r ++ r_v r ++ r_u r) ++ map Static (r_params r)) by (unfold all_args; rewrite !app_assoc; reflexivity).
    rewrite EA in El. apply (np_uses _ _ _ _ (2 * length (r_q r) + length (r_u r))%nat El); [rewrite !app_length; lia|].
    unfold rhs_funcs_of in Efu. cbn [String.eqb Ascii.eqb Bool.eqb] in Efu. rewrite map_length in Efu.
    assert (In fn (map (rename called) RHS) \/ exists a, In a (r_v r) /\ fn = Var a) as [I|(a & Ha & ->)].
    { destruct (length (r_q r) =? length RHS)%nat.
      - injection Efu as <-. apply in_app_iff in Hfn. destruct Hfn as [Hfn|Hfn]; auto. apply in_map_iff in Hfn. destruct Hfn as (a & <- & Ha). eauto.
      - destruct (_ =? _)%nat; [|discriminate]. injection Efu as <-. auto. }
    - apply in_map_iff in I. destruct I as (e & <- & He). destruct (Hs e He) as (a & Ha & Hc). exists (called a). split; auto. rewrite atoms_rename. apply in_map; auto.
    - exists a. split; [cbn; auto|]. rewrite !in_app_iff. auto. }
  destruct (NumpyProofs.new_F_rows X Uc p n (2 * length (r_q r)) (length (r_u r)) SX SU outs NO N1 UF) as (Y & EY & LY & RY).
  exists Y. unfold with_args. cbn [length Nat.eqb String.eqb Ascii.eqb Bool.eqb].
  replace (length (all_args r)) with (2 * length (r_q r) + length (r_u r) + length p)%nat by (rewrite (all_args_length _ _ _ _ Hr); lia).
  rewrite EY. rewrite (lambdify_length _ _ _ Eo), LF. split; [reflexivity|split; [auto|]]. intros i Hi. destruct (SV i Hi) as (val & Ex & Eu & Ep).
  specialize (V val). unfold groups_of in V. cbn [map app snd String.eqb Ascii.eqb Bool.eqb] in V. rewrite map_static, <- Ex, <- Eu, <- Ep in V. rewrite V. f_equal.
  rewrite (RY i Hi). rewrite <- (lambdify_values _ _ _ val Eo). f_equal. unfold NumpyProofs.sample.
  f_equal. unfold all_args. rewrite (map_app val (r_q r ++ r_v r)), (map_app val (r_u r)), map_static, <- Ex, <- Eu, <- Ep. reflexivity.
Qed.

(** ** Sym2Fx *)
Lemma sym2fx_parts RHS Q U F : Sym2Fx RHS Q U = Ok F -> exists r outs, arguments_of RHS Q U false false = Ok r /\
  mapm (lambdify (r_q r ++ r_u r ++ map Static (r_params r))) (map (rename called) RHS) = Ok outs /\
  F = with_args 3 (NumpyModel.new_F (length (r_q r ++ r_u r ++ map Static (r_params r))) outs).
Proof.
  unfold NumSymModel.Sym2Fx. destruct (mapm normal RHS) as [RHS'|] eqn:E; cbn [rbind]; [|discriminate]. rewrite (arguments_again _ _ IT _ _ Q U false false E). destruct (normals _ _ IT _ _ E) as [-> _].
  destruct (arguments_of RHS Q U false false) as [r|]; cbn [rbind]; [|discriminate].
  destruct (mapm (lambdify _) _) as [outs|] eqn:Eo; cbn [rbind]; [|discriminate]. intros H; injection H as <-. exists r, outs. auto.
Qed.
Theorem sym2fx_value RHS Q U F r : RHS <> [] -> Sym2Fx RHS Q U = Ok F -> arguments_of RHS Q U false false = Ok r ->
  forall val, F [A1 (map val (r_q r)); A1 (map val (r_u r)); A1 (map (fun s => val (Static s)) (r_params r))] = Ok (A1 (map (value val) RHS)).
Proof.
  intros NE HF Hr val. destruct (sym2fx_parts _ _ _ _ HF) as (r' & outs & Hr' & Eo & ->). rewrite Hr in Hr'. injection Hr' as <-.
  unfold with_args. cbn [length Nat.eqb].
  match goal with |- NumpyModel.new_F _ _ [A1 ?a; A1 ?b; A1 ?c] = _ => set (x := a); set (u := b); set (p := c) end.
  assert (EV : concat [x; u; p] = map val (r_q r ++ r_u r ++ map Static (r_params r))) by (cbn [concat]; rewrite app_nil_r, !map_app, map_static; reflexivity).
  rewrite <- (map_length val), <- EV. change [A1 x; A1 u; A1 p] with (map A1 [x; u; p]). rewrite NumpyProofs.new_F_vector.
  - rewrite EV, (lambdify_values _ _ _ _ Eo), values_rename. reflexivity.
  - intros ->. apply lambdify_length in Eo. destruct RHS; [congruence|discriminate].
Qed.
(** Named states: x' = RHS. *)
Theorem sym2fx_motion RHS names U F r : RHS <> [] -> Forall standard_name names -> Sym2Fx RHS (Q_list (coords 0 names)) U = Ok F ->
  arguments_of RHS (Q_list (coords 0 names)) U false false = Ok r ->
  forall sigma val, (forall a, In a (coords 0 names ++ symbols_in RHS) -> val (called a) = sigma a) ->
  F [A1 (map sigma (coords 0 names)); A1 (map val (r_u r)); A1 (map (fun s => val (Static s)) (r_params r))] = Ok (A1 (map (eval sigma) RHS)).
Proof.
  intros NE HS HF Hr sigma val HV. destruct (coords_args _ _ _ _ _ _ _ _ HS Hr) as (Eq & _). pose proof (sym2fx_value _ _ _ _ _ NE HF Hr val) as V. rewrite Eq in V.
  rewrite (coords_values 0 sigma) in V by (intros n Hn; apply HV; rewrite in_app_iff, coords_in; left; eauto). rewrite V. do 2 f_equal. apply value_eval.
  intros; apply HV; rewrite in_app_iff; auto.
Qed.
(** With a number of states, the symbols q_i are the states: x_i are parameters. *)
Theorem sym2fx_int RHS n U F : RHS <> [] -> standard_controls U -> (forall a, In a (symbols_in RHS) -> ~ In (called a) (numbered "q" n)) ->
  Sym2Fx RHS (Q_int n) U = Ok F ->
  forall x x' u p, length x = n -> length x' = n -> F [A1 x; A1 u; A1 p] = F [A1 x'; A1 u; A1 p].
Proof.
  intros NE HU NQ HF x x' u p Lx Lx'. destruct (sym2fx_parts _ _ _ _ HF) as (r & outs & Hr & Eo & ->).
  pose proof Hr as Hr'. unfold CasModel.arguments_of in Hr'. destruct (mapm normal RHS); cbn [rbind] in Hr'; [|discriminate].
  destruct (r_groups _ _ _ _ _ _ Hr') as (gq & gv & ga & gu & Hq & Hu & Rq & Rv & _). cbn in Hq. injection Hq as <- <- <-.
  assert (Ln : length (r_q r) = n) by (rewrite Rq; unfold numbered; rewrite map_length, seq_length; auto).
  unfold with_args. cbn [length Nat.eqb]. unfold NumpyModel.new_F.
  change [A1 x; A1 u; A1 p] with (map A1 [x; u; p]). change [A1 x'; A1 u; A1 p] with (map A1 [x'; u; p]). rewrite !NumpyProofs.unpack_vectors. cbn [rbind].
  assert (L : length (map NumpyModel.E0 (concat [x; u; p])) = length (map NumpyModel.E0 (concat [x'; u; p]))) by (rewrite !map_length; cbn [concat]; rewrite !app_length; lia).
  rewrite L. destruct (_ && _)%bool eqn:EB; [reflexivity|]. rewrite (PsBaryProofs.mapm_ext _ (NumpyModel.eval (map NumpyModel.E0 (concat [x'; u; p])))); [reflexivity|].
  intros o Ho. rewrite !NumpyProofs.eval_scalars. do 2 f_equal.
  assert (NO : negb (length outs =? 0)%nat = true) by (destruct outs; [destruct Ho|reflexivity]). rewrite NO, andb_true_r in EB. apply negb_false_iff, Nat.eqb_eq in EB.
  rewrite map_length in EB. cbn [concat] in EB. rewrite !app_length, map_length in EB. cbn [length] in EB.
  assert (exists fn, In fn (map (rename called) RHS) /\ lambdify (r_q r ++ r_u r ++ map Static (r_params r)) fn = Ok o) as (fn & Hfn & El).
  { clear -Eo Ho. revert outs Eo Ho. induction (map (rename called) RHS) as [|e l IH]; cbn [mapm]; intros outs Eo Ho; [injection Eo as <-; destruct Ho|].
    destruct (lambdify _ e) as [e'|] eqn:E; cbn [rbind] in Eo; [|discriminate]. destruct (mapm _ l) as [l'|] eqn:E2; cbn [rbind] in Eo; [|discriminate].
    injection Eo as <-. destruct Ho as [<-|Ho]; [exists e; cbn; auto|]. destruct (IH _ eq_refl Ho) as (fn & A & B). exists fn; cbn; auto. }
  apply lambdify_iff in El as NDI || (pose proof (proj1 (lambdify_iff _ _) (ex_intro _ _ El)) as NDI). destruct NDI as [ND _]. apply lambdify_np in El.
  destruct (some_values _ ND (concat [x; u; p])) as [val E1]; [cbn [concat]; rewrite !app_length, map_length; cbn [length]; lia|].
  destruct (some_values _ ND (concat [x'; u; p])) as [val' E2]; [cbn [concat]; rewrite !app_length, map_length; cbn [length]; lia|].
  rewrite E1, E2, !(np_value _ _ _ _ El). apply in_map_iff in Hfn. destruct Hfn as (e & <- & He).
  assert (AG : forall a, In a (r_u r ++ map Static (r_params r)) -> val a = val' a).
  { cbn [concat] in E1, E2. rewrite app_nil_r in E1, E2. rewrite map_app in E1, E2.
    assert (G : forall (a b c d : vec), length a = length b -> a ++ c = b ++ d -> c = d).
    { clear. induction a as [|y a IH]; intros [|z b] c d Lab H; try discriminate; auto. injection H as -> H. injection Lab as Lab. eauto. }
    assert (K1 : length x = length (map val (r_q r))) by (rewrite map_length; lia). assert (K2 : length x' = length (map val' (r_q r))) by (rewrite map_length; lia).
    apply (G _ _ _ _ K1) in E1. apply (G _ _ _ _ K2) in E2. rewrite E1 in E2. clear -E2. revert E2. generalize (r_u r ++ map Static (r_params r)).
    induction l as [|b l IH]; cbn [map]; intros E a; [intros []|]. injection E as A B. intros [<-|Ha]; auto. }
  apply eval_ext. intros b Hb. apply AG.
  pose proof (proj1 (np_iff _ _) (ex_intro _ _ El) b Hb) as I. rewrite atoms_rename in Hb. apply in_map_iff in Hb. destruct Hb as (a & <- & Ha).
  apply in_app_iff in I. destruct I as [I|I]; auto. exfalso. rewrite Rq in I. apply (NQ a); auto. apply in_concat. exists (atoms e). split; auto. apply in_map; auto.
Qed.
End Orders.
