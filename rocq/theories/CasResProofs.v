From Coq Require Import String Ascii Permutation.
From Verif Require Import Prelude PwInterpModel SymModel SymSpec SymProofs FuncDynModel FuncDynSpec FuncDynProofs CasModel CasSpec CasProofs CasRhsProofs CasNameProofs CasDynProofs.
Open Scope R_scope.
Open Scope list_scope.

Lemma cons_eq {A} (a b : A) l m : a = b -> l = m -> a :: l = b :: m.
Proof. congruence. Qed.
Ltac sz := cbn [map]; repeat (apply cons_eq; [cbn [length]; rewrite ?map_length, ?app_length; lia|]); reflexivity.

Section Orders.
Variable dyn_order : expr -> list atom.
Variable sym_order : expr -> list string.
Hypothesis IT : iterates dyn_order sym_order.
Notation normal := (normal dyn_order sym_order).
Notation arguments_of := (arguments_of dyn_order sym_order).
Notation to_casadi := (rhs_to_casadi_function dyn_order sym_order).
Notation get_f_g_funcs := (get_f_g_funcs dyn_order sym_order).

(** The right-hand side as a first-order system and its second half. *)

Lemma n_q_ok RHS Qv U sl sa r n : arguments_of RHS (as_qvars Qv) U sl sa = Ok r ->
  match Qv with V_int n => Ok n | V_list l | V_tuple l => Ok (length l) | V_other => Err ValueError end = Ok n -> length (r_q r) = n.
Proof.
  intros Hr Hn. destruct Qv; cbn in Hr; try discriminate Hn; injection Hn as <-.
  - unfold CasModel.arguments_of in Hr. destruct (mapm normal RHS); cbn [rbind] in Hr; [|discriminate].
    destruct (r_groups _ _ _ _ _ _ Hr) as (q & v & a & u & Hq & _ & -> & _). cbn in Hq. injection Hq as <- _ _. unfold numbered. rewrite map_length, seq_length. auto.
  - apply (arguments_q_list _ _ _ _ _ _ _ _ Hr).
  - unfold CasModel.arguments_of in Hr. destruct (mapm normal RHS); cbn [rbind] in Hr; [|discriminate]. rewrite find_arguments_eq in Hr. discriminate.
Qed.
Lemma sized_ok sizes args r : map (@length R) args = sizes -> sized sizes args r = r.
Proof. unfold sized. destruct (list_eq_dec _ _ _); tauto. Qed.
Lemma sized_err sizes args r : map (@length R) args <> sizes -> sized sizes args r = Err RuntimeError.
Proof. unfold sized. destruct (list_eq_dec _ _ _); tauto. Qed.

Theorem residuals_ok RHS Qv U r d : RHS <> [] -> arguments_of RHS (as_qvars Qv) U false false = Ok r -> get_f_g_funcs RHS Qv U = Ok d ->
  let n := length (r_q r) in
  res_n_u d = length (r_u r) /\ res_n_lambdas d = 0%nat /\
  forall val xd a, length xd = (2 * n)%nat -> length a = n ->
  let rhs := map (value val) RHS in let u := map val (r_u r) in let p := map (fun s => val (Static s)) (r_params r) in
  (holds (dynam_f_x d (map val (r_q r ++ r_v r)) xd u [] p) <-> xd = first_order n (map val (r_v r)) rhs) /\
  (holds (dynam_g_x d (map val (r_q r ++ r_v r)) xd u [] p) <-> skipn n xd = second_half n rhs) /\
  (holds (dynam_g_q d (map val (r_q r)) (map val (r_v r)) a u [] p) <-> a = second_half n rhs).
Proof.
  intros NE Hr. unfold CasModel.get_f_g_funcs. destruct (match Qv with V_int n => _ | _ => _ end) as [nq|] eqn:En; cbn [rbind]; [|discriminate].
  pose proof (n_q_ok _ _ _ _ _ _ _ Hr En) as Ln. destruct (to_casadi RHS (as_qvars Qv) U "x") as [F|] eqn:EF; cbn [rbind]; [|discriminate].
  destruct (to_casadi RHS (as_qvars Qv) U "q") as [G|] eqn:EG; cbn [rbind]; [|discriminate].
  intros H; injection H as <-. cbn [res_n_u res_n_lambdas dynam_f_x dynam_g_x dynam_g_q]. rewrite (sizes_x _ _ IT _ _ _ _ _ Hr EF). cbn [nth].
  split; [auto|split; auto]. intros val xd a Lx La. cbv zeta.
  pose proof (proj1 (arguments_lengths _ _ _ _ _ _ _ _ Hr)) as LV.
  pose proof (to_casadi_x _ _ IT _ _ _ _ _ Hr EF val) as VF. pose proof (to_casadi_q _ _ IT _ _ _ _ _ Hr EG val) as VG.
  destruct (proj1 (to_casadi_iff _ _ IT _ _ _ _ _ NE Hr) (ex_intro _ _ EF)) as (_ & LR & _).
  assert (LF : (if (length (r_q r) =? length RHS)%nat then map val (r_v r) else []) ++ map (value val) RHS = first_order (length (r_q r)) (map val (r_v r)) (map (value val) RHS)).
  { unfold first_order. rewrite map_length. destruct (_ =? _)%nat; auto. }
  rewrite LF in VF. clear LF.
  assert (LG : map (value val) (if (length (r_q r) =? length RHS)%nat then RHS else skipn (length (r_q r)) RHS) = second_half (length (r_q r)) (map (value val) RHS)).
  { unfold second_half. rewrite map_length. destruct (_ =? _)%nat; auto. rewrite skipn_map; auto. }
  rewrite LG in VG. clear LG.
  assert (HF : length (first_order (length (r_q r)) (map val (r_v r)) (map (value val) RHS)) = (2 * length (r_q r))%nat).
  { unfold first_order. rewrite map_length. destruct (Nat.eqb_spec (length (r_q r)) (length RHS)); rewrite ?app_length, !map_length; lia. }
  assert (HG : skipn (length (r_q r)) (first_order (length (r_q r)) (map val (r_v r)) (map (value val) RHS)) = second_half (length (r_q r)) (map (value val) RHS)).
  { unfold first_order, second_half. rewrite map_length. destruct (_ =? _)%nat; auto.
    rewrite <- LV, <- (map_length val (r_v r)), skipn_app, skipn_all, Nat.sub_diag. reflexivity. }
  subst nq. repeat split.
  - rewrite sized_ok by sz. rewrite VF. cbn [rbind]. apply cas_sub_holds. lia.
  - rewrite sized_ok by sz. rewrite VF. cbn [rbind]. apply cas_sub_holds. lia.
  - rewrite sized_ok by sz. rewrite VF. cbn [rbind]. rewrite HG. apply cas_sub_holds. rewrite <- HG, !skipn_length. lia.
  - rewrite sized_ok by sz. rewrite VF. cbn [rbind]. rewrite HG. apply cas_sub_holds. rewrite <- HG, !skipn_length. lia.
  - rewrite sized_ok by sz. rewrite VG. cbn [rbind]. apply cas_sub_holds. rewrite <- HG, skipn_length. lia.
  - rewrite sized_ok by sz. rewrite VG. cbn [rbind]. apply cas_sub_holds. rewrite <- HG, skipn_length. lia.
Qed.

(** For motions of named coordinates: the residuals vanish exactly when the
    accelerations are the right-hand side. *)
Theorem residuals_motion RHS names U r d : names <> [] -> Forall standard_name names -> length RHS = length names ->
  arguments_of RHS (Q_list (coords 0 names)) U false false = Ok r -> get_f_g_funcs RHS (V_list (coords 0 names)) U = Ok d ->
  forall sigma val, (forall a, In a (coords 0 names ++ coords 1 names ++ symbols_in RHS) -> val (called a) = sigma a) ->
  let u := map val (r_u r) in let p := map (fun s => val (Static s)) (r_params r) in
  let solves := map sigma (coords 2 names) = map (eval sigma) RHS in
  (holds (dynam_f_x d (map sigma (coords 0 names ++ coords 1 names)) (map sigma (coords 1 names ++ coords 2 names)) u [] p) <-> solves) /\
  (holds (dynam_g_x d (map sigma (coords 0 names ++ coords 1 names)) (map sigma (coords 1 names ++ coords 2 names)) u [] p) <-> solves) /\
  (holds (dynam_g_q d (map sigma (coords 0 names)) (map sigma (coords 1 names)) (map sigma (coords 2 names)) u [] p) <-> solves).
Proof.
  intros NN HS L Hr Hd sigma val HV. assert (NE : RHS <> []) by (intros ->; destruct names; cbn in L; congruence).
  destruct (residuals_ok RHS (V_list (coords 0 names)) U r d NE Hr Hd) as (_ & _ & K).
  destruct (coords_args _ _ _ _ _ _ _ _ HS Hr) as (Eq & Ev & _).
  assert (Ln : length (r_q r) = length names) by (rewrite Eq; unfold coords; rewrite !map_length; auto).
  specialize (K val (map sigma (coords 1 names ++ coords 2 names)) (map sigma (coords 2 names))). rewrite Ln, Eq, Ev in K.
  assert (V : forall k, (k < 2)%nat -> map val (map called (coords k names)) = map sigma (coords k names)).
  { intros k Hk. apply coords_values. intros n Hn. apply HV. rewrite !in_app_iff, !coords_in. destruct k as [|[|k]]; [left; eauto|right; left; eauto|lia]. }
  rewrite !map_app, !V in K by lia. rewrite (value_eval sigma) in K by (intros; apply HV; rewrite !in_app_iff; auto).
  assert (LC : forall k, length (map sigma (coords k names)) = length names) by (intros; unfold coords; rewrite !map_length; auto).
  cbv zeta in K |- *. assert (P1 : length (map sigma (coords 1 names) ++ map sigma (coords 2 names)) = (2 * length names)%nat) by (rewrite app_length, !LC; lia).
  destruct (K P1 (LC 2%nat)) as (K1 & K2 & K3). clear K.
  unfold first_order, second_half in *. rewrite map_length, L, Nat.eqb_refl in K1, K2, K3. rewrite !map_app.
  rewrite K1, K2, K3. split; [|split].
  - split; [intros E; apply app_inv_head in E; auto|intros ->; auto].
  - rewrite <- (LC 1%nat) at 1. rewrite skipn_app, skipn_all, Nat.sub_diag. reflexivity.
  - reflexivity.
Qed.

(** When there are residuals. *)
Theorem residuals_iff RHS Qv U r : RHS <> [] -> arguments_of RHS (as_qvars Qv) U false false = Ok r ->
  ((exists d, get_f_g_funcs RHS Qv U = Ok d) <->
   (length RHS = length (r_q r) \/ length RHS = 2 * length (r_q r))%nat /\ NoDup (r_q r ++ r_v r ++ r_u r ++ map Static (r_params r))).
Proof.
  intros NE Hr. unfold CasModel.get_f_g_funcs.
  assert (exists n, match Qv with V_int n => Ok n | V_list l | V_tuple l => Ok (length l) | V_other => Err ValueError end = Ok n) as [n ->].
  { destruct Qv; eauto. unfold CasModel.arguments_of in Hr. destruct (mapm normal RHS); cbn [rbind as_qvars] in Hr; [|discriminate]. rewrite find_arguments_eq in Hr. discriminate. }
  cbn [rbind]. pose proof (to_casadi_iff _ _ IT _ _ _ "x" _ NE Hr) as X. pose proof (to_casadi_iff _ _ IT _ _ _ "q" _ NE Hr) as Y.
  split.
  - intros [d H]. destruct (to_casadi RHS (as_qvars Qv) U "x") as [F|] eqn:EF; cbn [rbind] in H; [|discriminate].
    destruct (proj1 X) as (_ & A & B); eauto.
  - intros [A B]. destruct (proj2 X) as [F ->]; [auto|]. destruct (proj2 Y) as [G ->]; [auto|]. cbn [rbind]. eauto.
Qed.
Lemma tuple_refused RHS l U : exists e, get_f_g_funcs RHS (V_tuple l) U = Err e.
Proof.
  unfold CasModel.get_f_g_funcs. cbn [rbind as_qvars]. rewrite (to_casadi_eq _ _ IT). destruct (mapm normal RHS) eqn:E; cbn [rbind]; eauto.
  unfold CasModel.arguments_of. rewrite E. cbn [rbind]. rewrite find_arguments_eq. cbn [q_groups rbind]. eauto.
Qed.
(** dynamic_setup of an object with these coordinates. *)
Theorem explicit_setup_ok names RHS U s : names <> [] -> Forall standard_name names -> length RHS = length names ->
  explicit_setup dyn_order sym_order (coords 0 names) RHS U = Ok s ->
  exists r, arguments_of RHS (Q_list (coords 0 names)) U false false = Ok r /\
  su_n_q s = length names /\ su_n_u s = length (r_u r) /\ su_n_lambdas s = 0%nat /\ su_params_sym s = r_params r /\
  forall sigma val, (forall a, In a (coords 0 names ++ coords 1 names ++ symbols_in RHS) -> val (called a) = sigma a) ->
  let u := map val (r_u r) in let p := map (fun s => val (Static s)) (su_params_sym s) in
  let solves := map sigma (coords 2 names) = map (eval sigma) RHS in
  (holds (su_f s (map sigma (coords 0 names ++ coords 1 names)) (map sigma (coords 1 names ++ coords 2 names)) u [] p) <-> solves) /\
  (holds (su_g s (map sigma (coords 0 names)) (map sigma (coords 1 names)) (map sigma (coords 2 names)) u [] p) <-> solves).
Proof.
  intros NN HS L H. unfold explicit_setup in H. destruct (arguments_of RHS (Q_list (coords 0 names)) U false false) as [r|] eqn:Hr; cbn [rbind] in H; [|discriminate].
  destruct (get_f_g_funcs RHS (V_list (coords 0 names)) U) as [d|] eqn:Hd; cbn [rbind] in H; [|discriminate]. injection H as <-.
  exists r. cbn [su_n_q su_n_u su_n_lambdas su_params_sym su_f su_g]. assert (NE : RHS <> []) by (intros ->; destruct names; cbn in L; congruence).
  destruct (residuals_ok RHS (V_list (coords 0 names)) U r d NE Hr Hd) as (A & B & _).
  split; [auto|split; [unfold coords; apply map_length|split; [auto|split; [auto|split; [auto|]]]]].
  intros sigma val HV. cbv zeta. destruct (residuals_motion _ _ _ _ _ NN HS L Hr Hd sigma val HV) as (X & _ & Z). split; auto.
Qed.
End Orders.
