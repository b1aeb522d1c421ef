From Coq Require Import String Ascii Permutation.
From Verif Require Import Prelude PwInterpModel SymModel SymSpec SymProofs PlotModel PlotSpec PlotNameProofs LagrModel LagrSpec LagrProofs LagrMoreProofs FuncDynModel FuncDynSpec FuncDynProofs CasModel CasSpec CasProofs CasRhsProofs CasNameProofs CasDynProofs CasResProofs.
Open Scope R_scope.
Open Scope list_scope.

Section Orders.
Variable dyn_order : expr -> list atom.
Variable sym_order : expr -> list string.
Hypothesis IT : iterates dyn_order sym_order.
Notation normal := (normal dyn_order sym_order).
Notation arguments_of := (arguments_of dyn_order sym_order).
Notation impl_x_fun := (implicit_dynamic_x_to_casadi_function dyn_order sym_order).
Notation impl_q_fun := (implicit_dynamic_q_to_casadi_function dyn_order sym_order).

Definition x_groups (r : arguments) : list (sym * list atom) :=
  [(S_x, r_q r); (S_xdot, r_v r); (S_u, r_u r); (S_lam, map Static (r_lambdas r)); (S_p, map Static (r_params r))].
Definition q_groups' (r : arguments) : list (sym * list atom) :=
  [(S_q, r_q r); (S_v, r_v r); (S_a, r_a r); (S_u, r_u r); (S_lam, map Static (r_lambdas r)); (S_p, map Static (r_params r))].
Definition impl_of (gs : arguments -> list (sym * list atom)) (names : list string) (sa : bool) (D : list expr) (vars : list atom) (U : uvars) : Res cas_function :=
  do D' <- mapm normal D; do r <- arguments_of D (Q_list vars) U true sa;
  do outs <- mapm (fun f => sympy2casadi f (g_vars (gs r)) (g_cas (gs r))) D';
  Ok {| cf_in := map2 (fun n g => (n, fst g, length (snd g))) names (gs r); cf_out := outs |}.
Lemma impl_x_eq D Q U : impl_x_fun D Q U =
  do _ <- mapm normal D; do vars <- implicit_vars "x" Q; impl_of x_groups ["x"%string; "x_dot"%string; "u"%string; "lambdas"%string; "params"%string] false D vars U.
Proof.
  unfold implicit_dynamic_x_to_casadi_function, impl_of. destruct (mapm normal D) as [D'|] eqn:E; cbn [rbind]; auto.
  destruct (implicit_vars "x" Q) as [vars|]; cbn [rbind]; auto. rewrite (arguments_again _ _ IT _ _ _ _ _ _ E).
  destruct (arguments_of D (Q_list vars) U true false) as [r|]; cbn [rbind]; auto.
  unfold x_groups, g_vars, g_cas. cbn [map concat fst snd map2]. rewrite !app_nil_r. reflexivity.
Qed.
Lemma impl_q_eq D Q U : impl_q_fun D Q U =
  do _ <- mapm normal D; do vars <- implicit_vars "q" Q; impl_of q_groups' ["q"%string; "v"%string; "a"%string; "u"%string; "lambda"%string; "params"%string] true D vars U.
Proof.
  unfold implicit_dynamic_q_to_casadi_function, impl_of. destruct (mapm normal D) as [D'|] eqn:E; cbn [rbind]; auto.
  destruct (implicit_vars "q" Q) as [vars|]; cbn [rbind]; auto. rewrite (arguments_again _ _ IT _ _ _ _ _ _ E).
  destruct (arguments_of D (Q_list vars) U true true) as [r|]; cbn [rbind]; auto.
  unfold q_groups', g_vars, g_cas. cbn [map concat fst snd map2]. rewrite !app_nil_r. reflexivity.
Qed.
Lemma impl_of_value gs names sa D vars U r f k : (forall r, NoDup (map fst (gs r)) /\ k = length (gs r)) -> length names = k ->
  arguments_of D (Q_list vars) U true sa = Ok r -> impl_of gs names sa D vars U = Ok f ->
  cf_sizes f = map (fun g => length (snd g)) (gs r) /\
  forall val, cas_call f (map (fun g => map val (snd g)) (gs r)) = Ok (map (value val) D).
Proof.
  intros G Lk Hr. unfold impl_of. destruct (mapm normal D) as [D'|] eqn:E; cbn [rbind]; [|discriminate]. rewrite Hr. cbn [rbind].
  destruct (mapm _ D') as [outs|] eqn:Eo; cbn [rbind]; [|discriminate]. intros H; injection H as <-. destruct (G r) as [G1 G2]. rewrite <- Lk in G2. split.
  - unfold cf_sizes. cbn [cf_in]. clear -G2. revert G2. generalize (gs r). induction names as [|a l IH]; intros [|g gs'] L; cbn in *; try discriminate; auto. f_equal; auto.
  - intros val. rewrite (function_value _ _ val D' outs G1 G2 Eo). destruct (normals _ _ IT _ _ E) as [-> _]. rewrite values_rename. reflexivity.
Qed.
Lemma impl_of_iff gs names sa D vars U r : D <> [] -> arguments_of D (Q_list vars) U true sa = Ok r ->
  Permutation (g_vars (gs r)) (r_q r ++ r_v r ++ r_a r ++ r_u r ++ map Static (r_lambdas r) ++ map Static (r_params r)) ->
  ((exists f, impl_of gs names sa D vars U = Ok f) <-> NoDup (r_q r ++ r_v r ++ r_a r ++ r_u r ++ map Static (r_lambdas r) ++ map Static (r_params r))).
Proof.
  intros NE Hr P. unfold impl_of. destruct (mapm normal D) as [D'|] eqn:E.
  2:{ unfold CasModel.arguments_of in Hr. rewrite E in Hr. discriminate. }
  cbn [rbind]. rewrite Hr. cbn [rbind]. assert (NE' : D' <> []) by (intros ->; apply mapm_len in E; destruct D; cbn in E; congruence).
  split.
  - intros [f Hf]. destruct (mapm _ D') as [outs|] eqn:Eo; cbn [rbind] in Hf; [|discriminate]. destruct D' as [|e D']; [congruence|].
    pose proof (proj1 (mapm_ok_iff _ _) (ex_intro _ _ Eo) e (or_introl eq_refl)) as S'. apply sympy2casadi_iff in S'.
    apply (Permutation_NoDup P). tauto.
  - intros ND. destruct (proj2 (mapm_ok_iff (fun f => sympy2casadi f (g_vars (gs r)) (g_cas (gs r))) D')) as [outs ->].
    + intros e He. apply sympy2casadi_iff. split; [apply (Permutation_NoDup (Permutation_sym P)); auto|].
      intros a Ha. apply (Permutation_in _ (Permutation_sym P)). apply (arguments_cover _ _ IT _ _ _ _ _ _ _ _ _ E Hr He Ha).
    + cbn [rbind]; eauto.
Qed.
Lemma x_groups_ok r : NoDup (map fst (x_groups r)) /\ 5%nat = length (x_groups r).
Proof. split; auto. cbn. repeat constructor; cbn; intuition discriminate. Qed.
Lemma q_groups_ok r : NoDup (map fst (q_groups' r)) /\ 6%nat = length (q_groups' r).
Proof. split; auto. cbn. repeat constructor; cbn; intuition discriminate. Qed.

Lemma impl_parts {B} D (k : list atom -> Res B) c Q f : (do _ <- mapm normal D; do vars <- implicit_vars c Q; k vars) = Ok f ->
  exists vars, implicit_vars c Q = Ok vars /\ k vars = Ok f.
Proof.
  destruct (mapm normal D); cbn [rbind]; [|discriminate]. destruct (implicit_vars c Q) as [vars|]; cbn [rbind]; [eauto|discriminate].
Qed.
(** Values. *)
Theorem impl_q_value D Q U vars r f : implicit_vars "q" Q = Ok vars -> arguments_of D (Q_list vars) U true true = Ok r -> impl_q_fun D Q U = Ok f ->
  cf_sizes f = [length (r_q r); length (r_q r); length (r_q r); length (r_u r); length (r_lambdas r); length (r_params r)] /\
  forall val, cas_call f [map val (r_q r); map val (r_v r); map val (r_a r); map val (r_u r);
                          map (fun s => val (Static s)) (r_lambdas r); map (fun s => val (Static s)) (r_params r)] = Ok (map (value val) D).
Proof.
  intros Hv Hr. rewrite impl_q_eq. intros H. apply impl_parts in H. destruct H as (vars' & Hv' & H). rewrite Hv in Hv'. injection Hv' as <-.
  pose proof (fun L => impl_of_value _ _ _ _ _ _ _ _ 6%nat q_groups_ok L Hr H) as AB. destruct (AB eq_refl) as [A B]. clear AB. destruct (arguments_lengths _ _ _ _ _ _ _ _ Hr) as [LV LA]. specialize (LA eq_refl). split.
  - rewrite A. unfold q_groups'. cbn [map snd]. rewrite !map_length, LV, LA. reflexivity.
  - intros val. specialize (B val). unfold q_groups' in B. cbn [map snd] in B. rewrite !map_static in B. exact B.
Qed.
Theorem impl_x_value D Q U vars r f : implicit_vars "x" Q = Ok vars -> arguments_of D (Q_list vars) U true false = Ok r -> impl_x_fun D Q U = Ok f ->
  cf_sizes f = [length (r_q r); length (r_q r); length (r_u r); length (r_lambdas r); length (r_params r)] /\
  forall val, cas_call f [map val (r_q r); map val (r_v r); map val (r_u r);
                          map (fun s => val (Static s)) (r_lambdas r); map (fun s => val (Static s)) (r_params r)] = Ok (map (value val) D).
Proof.
  intros Hv Hr. rewrite impl_x_eq. intros H. apply impl_parts in H. destruct H as (vars' & Hv' & H). rewrite Hv in Hv'. injection Hv' as <-.
  pose proof (fun L => impl_of_value _ _ _ _ _ _ _ _ 5%nat x_groups_ok L Hr H) as AB. destruct (AB eq_refl) as [A B]. clear AB. destruct (arguments_lengths _ _ _ _ _ _ _ _ Hr) as [LV _]. split.
  - rewrite A. unfold x_groups. cbn [map snd]. rewrite !map_length, LV. reflexivity.
  - intros val. specialize (B val). unfold x_groups in B. cbn [map snd] in B. rewrite !map_static in B. exact B.
Qed.
(** When there is a function. *)
Theorem impl_q_iff D Q U vars r : D <> [] -> implicit_vars "q" Q = Ok vars -> arguments_of D (Q_list vars) U true true = Ok r ->
  ((exists f, impl_q_fun D Q U = Ok f) <-> NoDup (r_q r ++ r_v r ++ r_a r ++ r_u r ++ map Static (r_lambdas r) ++ map Static (r_params r))).
Proof.
  intros NE Hv Hr. rewrite impl_q_eq. destruct (mapm normal D) as [D'|] eqn:E.
  2:{ unfold CasModel.arguments_of in Hr. rewrite E in Hr. discriminate. }
  cbn [rbind]. rewrite Hv. cbn [rbind]. apply impl_of_iff; auto. unfold g_vars, q_groups'. cbn [map concat snd]. rewrite app_nil_r. apply Permutation_refl.
Qed.
Theorem impl_x_iff D Q U vars r : D <> [] -> implicit_vars "x" Q = Ok vars -> arguments_of D (Q_list vars) U true false = Ok r ->
  ((exists f, impl_x_fun D Q U = Ok f) <-> NoDup (r_q r ++ r_v r ++ r_u r ++ map Static (r_lambdas r) ++ map Static (r_params r))).
Proof.
  intros NE Hv Hr. rewrite impl_x_eq. destruct (mapm normal D) as [D'|] eqn:E.
  2:{ unfold CasModel.arguments_of in Hr. rewrite E in Hr. discriminate. }
  cbn [rbind]. rewrite Hv. cbn [rbind]. rewrite (impl_of_iff _ _ _ _ _ _ _ NE Hr); rewrite (proj2 (arguments_flags _ _ _ _ _ _ _ _ Hr) eq_refl); [reflexivity|].
  unfold g_vars, x_groups. cbn [map concat snd app]. rewrite app_nil_r. apply Permutation_refl.
Qed.
(** Clean names. *)
Lemma named_nodup_all names U r RHS sl sa : standard_controls U -> NoDup names -> Forall clean_name names -> (forall i, ~ In ("u_" ++ str_nat i)%string names) ->
  arguments_of RHS (Q_list (coords 0 names)) U sl sa = Ok r ->
  NoDup (r_q r ++ r_v r ++ r_a r ++ r_u r ++ map Static (r_lambdas r) ++ map Static (r_params r)).
Proof.
  intros HU ND C NU Hr. apply (arguments_nodup _ _ _ _ _ _ _ _ Hr).
  - intros q v a Hq. destruct (named_groups _ _ _ _ C Hq) as (-> & -> & ->). apply named_nodup; auto.
  - intros sets q v a u Hq Hu. destruct (named_groups _ _ _ _ C Hq) as (-> & -> & ->).
    assert (exists m, u = numbered "u" m) as (m & ->) by (destruct HU as [->|(m & ->)]; cbn in Hu; injection Hu as <-; eauto).
    split; [apply numbered_nodup|apply named_u_disjoint; auto].
Qed.
Lemma named_arguments names U D sl sa : standard_controls U -> can_be_called D -> Forall clean_name names ->
  exists r, arguments_of D (Q_list (coords 0 names)) U sl sa = Ok r.
Proof.
  intros HU CD C. apply (arguments_exist _ _ IT); auto.
  - rewrite coords_groups by (eapply Forall_impl; [apply clean_named|auto]). eauto.
  - destruct HU as [->|(m & ->)]; discriminate.
Qed.
Theorem impl_named D names U : standard_controls U -> D <> [] -> can_be_called D -> NoDup names -> Forall clean_name names -> (forall i, ~ In ("u_" ++ str_nat i)%string names) ->
  (exists f, impl_q_fun D (Q_list (coords 0 names)) U = Ok f) /\ (exists f, impl_x_fun D (Q_list (coords 0 names)) U = Ok f).
Proof.
  intros HU NE CD ND C NU. split.
  - destruct (named_arguments names U D true true HU CD C) as [r Hr]. apply (impl_q_iff D (Q_list (coords 0 names)) U _ r NE eq_refl Hr). eapply named_nodup_all; eauto.
  - destruct (named_arguments names U D true false HU CD C) as [r Hr]. apply (impl_x_iff D (Q_list (coords 0 names)) U _ r NE eq_refl Hr).
    pose proof (named_nodup_all names U r D _ _ HU ND C NU Hr) as N. rewrite (proj2 (arguments_flags _ _ _ _ _ _ _ _ Hr) eq_refl) in N. exact N.
Qed.
(** Motions. *)
Theorem impl_q_motion D names U r f : Forall standard_name names -> arguments_of D (Q_list (coords 0 names)) U true true = Ok r ->
  impl_q_fun D (Q_list (coords 0 names)) U = Ok f ->
  forall sigma val, (forall a, In a (coords 0 names ++ coords 1 names ++ coords 2 names ++ symbols_in D) -> val (called a) = sigma a) ->
  cas_call f [map sigma (coords 0 names); map sigma (coords 1 names); map sigma (coords 2 names); map val (r_u r);
              map (fun s => val (Static s)) (r_lambdas r); map (fun s => val (Static s)) (r_params r)] = Ok (map (eval sigma) D).
Proof.
  intros HS Hr Hf sigma val HV. destruct (coords_args _ _ _ _ _ _ _ _ HS Hr) as (Eq & Ev & Ea). specialize (Ea eq_refl).
  destruct (impl_q_value D (Q_list (coords 0 names)) U _ _ _ eq_refl Hr Hf) as [_ V]. specialize (V val). rewrite Eq, Ev, Ea in V.
  assert (VC : forall k, (k < 3)%nat -> map val (map called (coords k names)) = map sigma (coords k names)).
  { intros k Hk. apply coords_values. intros n Hn. apply HV. rewrite !in_app_iff, !coords_in. destruct k as [|[|[|k]]]; [left; eauto|right; left; eauto|right; right; left; eauto|lia]. }
  rewrite !VC in V by lia. rewrite V. f_equal. apply value_eval. intros; apply HV; rewrite !in_app_iff; auto.
Qed.
Theorem impl_x_motion D names U r f : Forall standard_name names -> arguments_of D (Q_list (coords 0 names)) U true false = Ok r ->
  impl_x_fun D (Q_list (coords 0 names)) U = Ok f ->
  forall sigma val, (forall a, In a (coords 0 names ++ coords 1 names ++ symbols_in D) -> val (called a) = sigma a) ->
  cas_call f [map sigma (coords 0 names); map sigma (coords 1 names); map val (r_u r);
              map (fun s => val (Static s)) (r_lambdas r); map (fun s => val (Static s)) (r_params r)] = Ok (map (eval sigma) D).
Proof.
  intros HS Hr Hf sigma val HV. destruct (coords_args _ _ _ _ _ _ _ _ HS Hr) as (Eq & Ev & _).
  destruct (impl_x_value D (Q_list (coords 0 names)) U _ _ _ eq_refl Hr Hf) as [_ V]. specialize (V val). rewrite Eq, Ev in V.
  assert (VC : forall k, (k < 2)%nat -> map val (map called (coords k names)) = map sigma (coords k names)).
  { intros k Hk. apply coords_values. intros n Hn. apply HV. rewrite !in_app_iff, !coords_in. destruct k as [|[|k]]; [left; eauto|right; left; eauto|lia]. }
  rewrite !VC in V by lia. rewrite V. f_equal. apply value_eval. intros; apply HV; rewrite !in_app_iff; auto.
Qed.
(** An int means the coordinates of these names. *)
Lemma implicit_int c n : implicit_vars c (Q_int n) = Ok (coords 0 (map (fun i => (c ++ "_" ++ str_nat i)%string) (seq 0 n))).
Proof. cbn [implicit_vars]. unfold dynamicsymbols, coords. rewrite map_map. reflexivity. Qed.
Lemma numbered_standard c i : c = "q"%string \/ c = "x"%string -> standard_name (c ++ "_" ++ str_nat i).
Proof. intros [->| ->]; repeat split; cbn; discriminate. Qed.
Lemma numbered_clean c n : c = "q"%string \/ c = "x"%string -> let names := map (fun i => (c ++ "_" ++ str_nat i)%string) (seq 0 n) in
  NoDup names /\ Forall clean_name names /\ Forall standard_name names /\ forall i, ~ In ("u_" ++ str_nat i)%string names.
Proof.
  intros H. cbv zeta. split; [|split; [|split]].
  - apply FinFun.Injective_map_NoDup; [|apply seq_NoDup]. intros i j E. apply app_inj_l in E. injection E as E. apply str_nat_inj; auto.
  - apply Forall_forall. intros s Hs. apply in_map_iff in Hs. destruct Hs as (i & <- & _). apply clean_numbered. tauto.
  - apply Forall_forall. intros s Hs. apply in_map_iff in Hs. destruct Hs as (i & <- & _). apply numbered_standard; auto.
  - intros i Hi. apply in_map_iff in Hi. destruct Hi as (j & E & _). destruct H as [->| ->]; discriminate E.
Qed.
End Orders.

(** ** States *)
Lemma x_for_nth names : NoDup names -> forall i0 k i lev, (i < length names)%nat ->
  x_for_from i0 k names (nth i names ""%string) lev = match lev with O => Dyn (x_name (i0 + i)) 0 | S l => Dyn (x_name (k + (i0 + i))) l end.
Proof.
  induction 1 as [|q names Hq Hn IH]; intros i0 k i lev Hi; cbn in Hi; [lia|].
  destruct i as [|i]; cbn [nth x_for_from].
  - destruct (string_dec q q); [|congruence]. rewrite Nat.add_0_r. reflexivity.
  - destruct (string_dec (nth i names ""%string) q) as [E|_].
    + exfalso. apply Hq. rewrite <- E. apply nth_In. lia.
    + rewrite IH by lia. replace (S i0 + i)%nat with (i0 + S i)%nat by lia. reflexivity.
Qed.
Lemma x_for_out names m0 : ~ In m0 names -> forall i k lev, x_for_from i k names m0 lev = Dyn m0 lev.
Proof.
  induction names as [|q names IH]; intros H i k lev; cbn [x_for_from]; auto.
  destruct (string_dec m0 q) as [->|]; [exfalso; apply H; now left|]. apply IH. intros Hi. apply H. now right.
Qed.
Lemma x_names_form n : x_names n = map (fun i => ("x" ++ "_" ++ str_nat i)%string) (seq 0 n).
Proof. reflexivity. Qed.
Lemma rename_var f a : rename f (Var a) = Var (f a).
Proof. reflexivity. Qed.
Lemma states_ok names : NoDup names -> x_clear names ->
  states_of (coords 0 names) = Ok (coords 0 (x_names (2 * length names))).
Proof.
  intros ND NX. unfold states_of.
  assert (ED : map (fun a => match a with Dyn n k => Dyn n (S k) | a => a end) (coords 0 names) = coords 1 names) by (unfold coords; rewrite map_map; auto).
  rewrite ED. set (n := length names).
  assert (Q : forall a, q_2_x (Var a) (coords 0 names) (coords 1 names) = Ok (Var (x_for names a))).
  { intros a. destruct (q_2_x (Var a) (coords 0 names) (coords 1 names)) as [e|x] eqn:E.
    - rewrite (q_2_x_clear names _ _ ND NX E). reflexivity.
    - exfalso. unfold q_2_x in E. unfold coords in E. rewrite !map_length, Nat.eqb_refl in E. discriminate. }
  assert (M : forall l, mapm (fun a => do e <- q_2_x (Var a) (coords 0 names) (coords 1 names); match e with Var b => Ok b | _ => Err TypeError end) l = Ok (map (x_for names) l)).
  { induction l as [|a l IH]; cbn [mapm map]; auto. rewrite Q. cbn [rbind]. rewrite IH. reflexivity. }
  rewrite M. f_equal. rewrite map_app.
  assert (G : forall k, (k < 2)%nat -> map (x_for names) (coords k names) = coords 0 (map x_name (seq (k * n) n))).
  { intros k Hk. apply (nth_ext _ _ (Static ""%string) (Static ""%string)).
    - unfold coords. rewrite !map_length, seq_length. reflexivity.
    - intros i Hi. unfold coords in Hi. rewrite !map_length in Hi. unfold coords.
      rewrite !map_map. rewrite (nth_indep _ _ (x_for names (Dyn ""%string k))) by (rewrite map_length; auto). rewrite (map_nth (fun x => x_for names (Dyn x k))).
      rewrite (nth_indep _ _ (Dyn (x_name 0) 0)) by (rewrite map_length, seq_length; auto). rewrite (map_nth (fun x => Dyn (x_name x) 0)). rewrite seq_nth by auto.
      cbn [x_for]. rewrite x_for_nth by auto. destruct k as [|[|k]]; [|fold n; rewrite !Nat.add_0_l, Nat.mul_1_l; auto|lia]. reflexivity. }
  rewrite !G by lia. unfold coords, x_names. rewrite <- !map_app. rewrite Nat.mul_0_l, Nat.mul_1_l. change n with (0 + n)%nat at 2. rewrite <- seq_app.
  replace (n + n)%nat with (2 * n)%nat by lia. reflexivity.
Qed.
Lemma all_zero_nth (l : vec) d : all_zero l <-> forall i, (i < length l)%nat -> nth i l d = 0.
Proof.
  split.
  - intros H i Hi. unfold all_zero in H. rewrite Forall_forall in H. apply H, nth_In; auto.
  - intros H. apply Forall_forall. intros x Hx. destruct (In_nth _ _ d Hx) as (i & Hi & <-). auto.
Qed.
Lemma all_zero_evals rho l : all_zero (map (eval rho) l) <-> forall i, (i < length l)%nat -> eval rho (nth i l (Num 0)) = 0.
Proof.
  rewrite (all_zero_nth _ (eval rho (Num 0))), map_length. split; intros H i Hi; specialize (H i Hi).
  - rewrite map_nth in H. auto.
  - rewrite map_nth. auto.
Qed.
(** State form and equations vanish together. *)
Lemma state_form_zero names D X rho : NoDup names -> state_form names D X ->
  (all_zero (map (eval rho) X) <->
   (forall i, (i < length names)%nat -> rho (Dyn (x_name i) 1) = rho (Dyn (x_name (length names + i)) 0)) /\
   all_zero (map (eval (fun a => rho (x_for names a))) D)).
Proof.
  intros ND (L & K & E). rewrite !all_zero_evals, L. split.
  - intros H. split.
    + intros i Hi. specialize (H i ltac:(lia)). rewrite K in H by auto. lra.
    + intros i Hi. specialize (H (length names + i)%nat ltac:(lia)). rewrite E in H by auto. auto.
  - intros [A B] i Hi. destruct (Nat.lt_ge_cases i (length names)) as [G|G].
    + rewrite K by auto. rewrite A by auto. lra.
    + replace i with (length names + (i - length names))%nat by lia. rewrite E by lia. apply B. lia.
Qed.
Lemma follows_for names sigma rho a : NoDup names -> follows names sigma rho -> (forall s k, ~ In s names -> rho (Dyn s k) = sigma (Dyn s k)) ->
  (forall s, rho (Static s) = sigma (Static s)) -> rho (x_for names a) = sigma a.
Proof.
  intros ND F O Z. destruct a as [s|m k]; cbn [x_for]; auto. destruct (in_dec string_dec m names) as [I|I].
  - destruct (In_nth _ _ ""%string I) as (i & Hi & <-). rewrite x_for_nth by auto. destruct (F i k Hi) as [A _]. destruct k as [|k]; [exact A|]. destruct (F i k Hi) as [_ B]. exact B.
  - rewrite x_for_out by auto. auto.
Qed.
