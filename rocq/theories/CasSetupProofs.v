From Coq Require Import String Ascii Permutation.
From Verif Require Import Prelude PwInterpModel SymModel SymSpec SymProofs PlotModel PlotSpec PlotNameProofs FuncDynModel FuncDynSpec FuncDynProofs CasModel CasSpec CasProofs CasRhsProofs CasNameProofs CasDynProofs CasResProofs CasImplProofs.
Open Scope R_scope.
Open Scope list_scope.

Lemma follows_states names (sigma rho : atom -> R) k : follows names sigma rho ->
  map rho (coords k (x_names (2 * length names))) = map sigma (coords k names ++ coords (S k) names).
Proof.
  intros F. unfold x_names. replace (2 * length names)%nat with (length names + length names)%nat by lia. rewrite seq_app, map_app.
  unfold coords. rewrite !map_app, !map_map. cbn [Nat.add].
  assert (G : forall (A : Type) (f : nat -> R) (g : string -> R) s, (forall i, (i < length names)%nat -> f (s + i)%nat = g (nth i names ""%string)) -> map f (seq s (length names)) = map g names).
  { clear. intros _ f g. induction names as [|a l IH]; intros s H; cbn [length seq map]; auto. f_equal.
    - transitivity (f (s + 0)%nat); [f_equal; lia|]. rewrite H by (cbn; lia). reflexivity.
    - apply IH. intros i Hi. transitivity (f (s + S i)%nat); [f_equal; lia|]. rewrite H by (cbn; lia). reflexivity. }
  f_equal; apply (G R).
  - intros i Hi. cbn [Nat.add]. apply (F i k Hi).
  - intros i Hi. apply (F i k Hi).
Qed.
Lemma state_names_ok n : Forall standard_name (x_names n) /\ Forall clean_name (x_names n) /\ NoDup (x_names n) /\ forall i, ~ In ("u_" ++ str_nat i)%string (x_names n).
Proof. rewrite x_names_form. pose proof (numbered_clean "x" n (or_intror eq_refl)) as (A & B & C & D). auto. Qed.

Section Orders.
Variable dyn_order : expr -> list atom.
Variable sym_order : expr -> list string.
Hypothesis IT : iterates dyn_order sym_order.
Notation normal := (normal dyn_order sym_order).
Notation arguments_of := (arguments_of dyn_order sym_order).
Notation to_casadi := (rhs_to_casadi_function dyn_order sym_order).
Notation implicit_setup := (implicit_setup dyn_order sym_order).

Lemma setup_parts names impl_x impl_q U s : NoDup names -> x_clear names ->
  implicit_setup (coords 0 names) impl_x impl_q U = Ok s ->
  exists r f g, arguments_of impl_q (Q_list (coords 0 names)) U_none true false = Ok r /\
  implicit_dynamic_x_to_casadi_function dyn_order sym_order impl_x (Q_list (coords 0 (x_names (2 * length names)))) U_none = Ok f /\
  implicit_dynamic_q_to_casadi_function dyn_order sym_order impl_q (Q_list (coords 0 names)) U_none = Ok g /\
  su_n_q s = length names /\ su_n_u s = nth 2 (cf_sizes f) 0%nat /\ su_n_lambdas s = nth 3 (cf_sizes f) 0%nat /\ su_params_sym s = r_params r /\
  (forall x x_dot u lam p, su_f s x x_dot u lam p = cas_call f [x; x_dot; u; lam; p]) /\
  (forall q q_dot q_dot_dot u lam p, su_g s q q_dot q_dot_dot u lam p = cas_call g [q; q_dot; q_dot_dot; u; lam; p]).
Proof.
  intros ND NX. unfold CasModel.implicit_setup. rewrite states_ok by auto. cbn [rbind].
  destruct (arguments_of impl_q (Q_list (coords 0 names)) U_none true false) as [r|]; cbn [rbind]; [|discriminate].
  destruct (implicit_dynamic_x_to_casadi_function dyn_order sym_order impl_x _ U_none) as [f|]; cbn [rbind]; [|discriminate].
  destruct (implicit_dynamic_q_to_casadi_function dyn_order sym_order impl_q _ U_none) as [g|]; cbn [rbind]; [|discriminate].
  intros H; injection H as <-. exists r, f, g. cbn. repeat split. unfold coords. apply map_length.
Qed.
Lemma impl_arguments_x D Q U f : implicit_dynamic_x_to_casadi_function dyn_order sym_order D (Q_list Q) U = Ok f -> exists r, arguments_of D (Q_list Q) U true false = Ok r.
Proof.
  rewrite (impl_x_eq _ _ IT). destruct (mapm normal D); cbn [rbind implicit_vars]; [|discriminate]. unfold impl_of.
  destruct (mapm normal D); cbn [rbind]; [|discriminate]. destruct (arguments_of D (Q_list Q) U true false); cbn [rbind]; [eauto|discriminate].
Qed.
Lemma impl_arguments_q D Q U f : implicit_dynamic_q_to_casadi_function dyn_order sym_order D (Q_list Q) U = Ok f -> exists r, arguments_of D (Q_list Q) U true true = Ok r.
Proof.
  rewrite (impl_q_eq _ _ IT). destruct (mapm normal D); cbn [rbind implicit_vars]; [|discriminate]. unfold impl_of.
  destruct (mapm normal D); cbn [rbind]; [|discriminate]. destruct (arguments_of D (Q_list Q) U true true); cbn [rbind]; [eauto|discriminate].
Qed.
(** dynamic_setup of an object with implicit equations. *)
Theorem implicit_setup_ok names impl_x impl_q U s : NoDup names -> Forall standard_name names ->
  x_clear names -> state_form names impl_q impl_x ->
  implicit_setup (coords 0 names) impl_x impl_q U = Ok s ->
  exists rx rq, arguments_of impl_x (Q_list (coords 0 (x_names (2 * length names)))) U_none true false = Ok rx /\
  arguments_of impl_q (Q_list (coords 0 names)) U_none true true = Ok rq /\
  su_n_q s = length names /\ su_n_u s = length (r_u rx) /\ su_n_lambdas s = length (r_lambdas rx) /\
  (forall sigma val, (forall a, In a (coords 0 names ++ coords 1 names ++ coords 2 names ++ symbols_in impl_q) -> val (called a) = sigma a) ->
     su_g s (map sigma (coords 0 names)) (map sigma (coords 1 names)) (map sigma (coords 2 names)) (map val (r_u rq))
       (map (fun s => val (Static s)) (r_lambdas rq)) (map (fun s => val (Static s)) (r_params rq)) = Ok (map (eval sigma) impl_q)) /\
  (forall sigma rho val, follows names sigma rho ->
     (forall s k, ~ In s names -> rho (Dyn s k) = sigma (Dyn s k)) -> (forall s, rho (Static s) = sigma (Static s)) ->
     (forall a, In a (coords 0 (x_names (2 * length names)) ++ coords 1 (x_names (2 * length names)) ++ symbols_in impl_x) -> val (called a) = rho a) ->
     (holds (su_f s (map sigma (coords 0 names ++ coords 1 names)) (map sigma (coords 1 names ++ coords 2 names)) (map val (r_u rx))
       (map (fun s => val (Static s)) (r_lambdas rx)) (map (fun s => val (Static s)) (r_params rx))) <-> all_zero (map (eval sigma) impl_q))).
Proof.
  intros ND HS NX SF H. destruct (setup_parts _ _ _ _ _ ND NX H) as (r & f & g & Hr & Hf & Hg & A & B & C & D & Ef & Eg).
  destruct (impl_arguments_x _ _ _ _ Hf) as [rx Hrx]. destruct (impl_arguments_q _ _ _ _ Hg) as [rq Hrq]. exists rx, rq.
  destruct (impl_x_value _ _ IT impl_x (Q_list (coords 0 (x_names (2 * length names)))) U_none _ _ _ eq_refl Hrx Hf) as [Sx _]. rewrite Sx in B, C. cbn [nth] in B, C.
  split; [auto|split; [auto|split; [auto|split; [auto|split; [auto|split]]]]].
  - intros sigma val HV. rewrite Eg. apply (impl_q_motion _ _ IT _ _ _ _ _ HS Hrq Hg sigma val HV).
  - intros sigma rho val F O Z HV. rewrite Ef, <- !(follows_states names sigma rho) by auto.
    destruct (state_names_ok (2 * length names)) as (S1 & _).
    rewrite (impl_x_motion _ _ IT _ _ _ _ _ S1 Hrx Hf rho val HV). rewrite ok_holds, (state_form_zero _ _ _ _ ND SF).
    assert (E : map (eval (fun a => rho (x_for names a))) impl_q = map (eval sigma) impl_q).
    { apply map_ext. intros e. apply eval_ext. intros a _. apply follows_for; auto. }
    rewrite E. split; [tauto|]. intros Hz; split; auto. intros i Hi. rewrite (proj1 (F i 1%nat Hi)), (proj2 (F i 0%nat Hi)). reflexivity.
Qed.
(** Clean names are accepted. *)
Theorem implicit_setup_clean names impl_x impl_q U : impl_q <> [] -> impl_x <> [] -> can_be_called impl_q -> can_be_called impl_x ->
  NoDup names -> Forall clean_name names -> (forall i, ~ In ("u_" ++ str_nat i)%string names) ->
  x_clear names -> exists s, implicit_setup (coords 0 names) impl_x impl_q U = Ok s.
Proof.
  intros Nq Nx Cq Cx ND C NU NX. unfold CasModel.implicit_setup. rewrite states_ok by auto. cbn [rbind].
  destruct (named_arguments _ _ IT names U_none impl_q true false (or_introl eq_refl) Cq C) as [r ->]. cbn [rbind].
  destruct (state_names_ok (2 * length names)) as (S1 & S2 & S3 & S4).
  destruct (impl_named _ _ IT impl_x _ U_none (or_introl eq_refl) Nx Cx S3 S2 S4) as [_ [f ->]]. cbn [rbind].
  destruct (impl_named _ _ IT impl_q _ U_none (or_introl eq_refl) Nq Cq ND C NU) as [[g ->] _]. cbn [rbind]. eauto.
Qed.
Theorem explicit_setup_clean names RHS U : standard_controls U -> RHS <> [] -> can_be_called RHS -> length RHS = length names ->
  NoDup names -> Forall clean_name names -> (forall i, ~ In ("u_" ++ str_nat i)%string names) ->
  exists s, explicit_setup dyn_order sym_order (coords 0 names) RHS U = Ok s.
Proof.
  intros HU NE CC L ND C NU. unfold explicit_setup.
  destruct (named_arguments _ _ IT names U RHS false false HU CC C) as [r Hr]. rewrite Hr. cbn [rbind].
  destruct (proj2 (residuals_iff _ _ IT RHS (V_list (coords 0 names)) U r NE Hr)) as [d ->]; [|cbn [rbind]; eauto].
  split; [left; rewrite (arguments_q_list _ _ _ _ _ _ _ _ Hr); unfold coords; rewrite map_length; auto|]. eapply named_ok; eauto.
Qed.

(** params_sym of an implicit problem also has the accelerations, which are not
    parameters of its functions. *)
Theorem implicit_params names impl_x impl_q U s rq n : NoDup names -> Forall clean_name names -> Forall standard_name names ->
  (forall i, ~ In ("u_" ++ str_nat i)%string names) ->
  x_clear names -> implicit_setup (coords 0 names) impl_x impl_q U = Ok s ->
  arguments_of impl_q (Q_list (coords 0 names)) U_none true true = Ok rq -> In n names -> In (Dyn n 2) (symbols_in impl_q) ->
  (length (r_params rq) < length (su_params_sym s))%nat /\
  (forall q v a u lam p, length p = length (su_params_sym s) -> su_g s q v a u lam p = Err RuntimeError).
Proof.
  intros ND C HS NU NX H Hrq Hn Ha. destruct (setup_parts _ _ _ _ _ ND NX H) as (r & f & g & Hr & Hf & Hg & _ & _ & _ & D & _ & Eg).
  assert (L : (length (r_params rq) < length (su_params_sym s))%nat).
  { rewrite D. clear -Hr Hrq Hn Ha C HS ND NU IT. unfold CasModel.arguments_of in Hr, Hrq. destruct (mapm normal impl_q) as [l|] eqn:E; cbn [rbind] in Hr, Hrq; [|discriminate].
    rewrite find_arguments_eq in Hr, Hrq.
    assert (QG : q_groups (Q_list (coords 0 names)) = Ok (map symb_of (coords 0 names), map symb_of (coords 1 names), map symb_of (coords 2 names))).
    { apply coords_groups. eapply Forall_impl; [apply clean_named|auto]. }
    rewrite QG in Hr, Hrq. cbn [rbind u_group] in Hr, Hrq. cbv zeta in Hr, Hrq. injection Hr as <-. injection Hrq as <-. cbn [r_params].
    set (F := all_found (map symb_of (coords 0 names) ++ map symb_of (coords 1 names)) (numbered "u" (n_symbols (map sym_order l))) (map symb_of (coords 2 names)) (map sym_order l)).
    assert (LS : forall l, length (sorted l) = length l) by (intros; symmetry; apply Permutation_length, sorted_perm).
    rewrite !LS, !app_nil_r, app_length, LS.
    assert (NE : f_a F <> []).
    { assert (SN : standard_name n) by (rewrite Forall_forall in HS; auto). assert (CN : clean_name n) by (rewrite Forall_forall in C; auto).
      destruct (symb_of_dyn n 2 (clean_named _ CN)) as (s' & _ & Es). intros EE.
      assert (I : In s' (f_get G_a F)); [|cbn in I; rewrite EE in I; destruct I].
      apply all_found_in. split.
      - apply in_concat. unfold symbols_in in Ha. apply in_concat in Ha. destruct Ha as (x & Hx & Hax). apply in_map_iff in Hx. destruct Hx as (e & <- & He).
        exists (sym_order (rename called e)). split.
        + apply in_map. destruct (normals _ _ IT _ _ E) as [-> _]. apply in_map; auto.
        + apply (IT (rename called e)). rewrite atoms_rename. rewrite <- Es, <- std_none_symb by auto. apply in_map; auto.
      - pose proof (named_nodup names ND C) as NN. unfold group_of.
        assert (I2 : In (Static s') (map symb_of (coords 2 names))) by (rewrite <- Es; apply in_map, coords_in; eauto).
        destruct (in_dec atom_eq_dec (Static s') (numbered "u" (n_symbols (map sym_order l)))) as [I|I].
        + exfalso. apply (named_u_disjoint _ names C NU _ I). rewrite !in_app_iff. auto.
        + destruct (in_dec atom_eq_dec (Static s') (map symb_of (coords 0 names) ++ map symb_of (coords 1 names))) as [J|J].
          * exfalso. rewrite app_assoc in NN. clear -NN J I2. revert NN J. generalize (map symb_of (coords 0 names) ++ map symb_of (coords 1 names)).
            intros l0. induction l0 as [|x l0 IH]; cbn; [auto|]. intros NN; inversion NN; subst. intros [->|J]; auto. apply H1. apply in_app_iff; auto.
          * destruct (in_dec atom_eq_dec (Static s') (map symb_of (coords 2 names))); [auto|tauto]. }
    destruct (f_a F); [congruence|cbn; lia]. }
  split; auto. intros q v a u lam p Lp. rewrite Eg. apply cas_sizes.
  destruct (impl_q_value _ _ IT impl_q (Q_list (coords 0 names)) U_none _ _ _ eq_refl Hrq Hg) as [-> _]. cbn [map]. intros E.
  injection E as _ _ _ _ _ E. lia.
Qed.

(** Coordinates called q1, q2, ... given in a list: the function does not depend
    on them. *)
Lemma short_std n : short_name n -> std_name n <> None.
Proof. intros (d & H & ->). cbn. rewrite H. discriminate. Qed.
Lemma short_symb n k : short_name n -> exists s, symb_of (Dyn n k) = Static s /\ ((k < 2)%nat -> std_name s <> None).
Proof.
  intros (d & H & ->). destruct d as [|c d]; [discriminate|].
  assert (N : String "q" (String c d) <> ""%string /\ String "q" (String c d) <> "q"%string) by (split; discriminate).
  destruct (symb_of_dyn _ k N) as (s & E & F). exists s. split; auto. intros Hk. destruct k as [|[|k]]; [| |lia].
  - cbn in E. injection E as <-. apply short_std. exists (String c d); auto.
  - cbn in E. assert (DC : digit c = true) by (cbn in H; apply andb_true_iff in H; tauto).
    rewrite DC, orb_true_r in E. cbn in E. injection E as <-. cbn [std_name]. rewrite H. discriminate.
Qed.
Lemma called_fixed a s : can_be_called [Var a] -> called a = Static s -> std_name s = None.
Proof.
  intros H E. destruct (called_static a) as (s' & E' & N).
  - intros n k ->. apply (H n k). cbn. auto.
  - rewrite E in E'. injection E' as ->. auto.
Qed.
Theorem short_names_ignored RHS names U f : RHS <> [] -> length RHS = length names -> Forall short_name names -> standard_controls U ->
  to_casadi RHS (Q_list (coords 0 names)) U "q" = Ok f ->
  forall q q' v v' u p, length q = length names -> length q' = length names -> length v = length names -> length v' = length names ->
  cas_call f [q; v; u; p] = cas_call f [q'; v'; u; p].
Proof.
  intros NE L SN HU Hf q q' v v' u p Lq Lq' Lv Lv'.
  destruct (to_casadi_arguments _ _ IT _ _ _ _ _ Hf) as [r Hr]. pose proof (sizes_q _ _ IT _ _ _ _ _ Hr Hf) as Sz.
  pose proof (arguments_q_list _ _ _ _ _ _ _ _ Hr) as Ln. unfold coords in Ln. rewrite map_length in Ln.
  pose proof (proj1 (arguments_lengths _ _ _ _ _ _ _ _ Hr)) as LV.
  destruct (Nat.eq_dec (length u) (length (r_u r))) as [Lu|Nu].
  2:{ rewrite !cas_sizes; auto; rewrite Sz; cbn [map]; congruence. }
  destruct (Nat.eq_dec (length p) (length (r_params r))) as [Lp|Np].
  2:{ rewrite !cas_sizes; auto; rewrite Sz; cbn [map]; congruence. }
  destruct (every_argument _ _ IT _ _ _ _ _ _ (q ++ v) u p NE Hr Hf) as (val & E1 & Eu & Ep); auto; [rewrite app_length; lia|].
  destruct (every_argument _ _ IT _ _ _ _ _ _ (q' ++ v') u p NE Hr Hf) as (val' & E1' & Eu' & Ep'); auto; [rewrite app_length; lia|].
  assert (G : forall (a b c d : vec), length a = length b -> a ++ c = b ++ d -> a = b /\ c = d).
  { clear. induction a as [|y a IH]; intros [|z b] c d Lab H; try discriminate; auto. injection H as -> H. injection Lab as Lab. destruct (IH _ _ _ Lab H); subst; auto. }
  rewrite map_app in E1, E1'.
  assert (K1 : length q = length (map val (r_q r))) by (rewrite map_length; lia). assert (K2 : length q' = length (map val' (r_q r))) by (rewrite map_length; lia).
  destruct (G _ _ _ _ K1 E1) as [Eq Ev]. destruct (G _ _ _ _ K2 E1') as [Eq' Ev'].
  transitivity (Ok (map (value val) RHS)); [|transitivity (Ok (map (value val') RHS))].
  - rewrite Eq, Ev, Eu, Ep. rewrite (to_casadi_q _ _ IT _ _ _ _ _ Hr Hf val). rewrite Ln, L, Nat.eqb_refl. reflexivity.
  - f_equal. apply map_ext_in. intros e He. unfold value. apply eval_ext. intros a Ha.
    assert (exists l', mapm normal RHS = Ok l') as [l' El].
    { unfold CasModel.arguments_of in Hr. destruct (mapm normal RHS); cbn in Hr; [eauto|discriminate]. }
    pose proof (proj1 (normals _ _ IT _ _ El)) as EL. pose proof (proj1 (normals_ok _ _ IT _) (ex_intro _ _ El)) as CC.
    assert (IA : In (called a) (atoms (rename called e))) by (rewrite atoms_rename; apply in_map; auto).
    assert (IE : In (rename called e) l') by (rewrite EL; apply in_map; auto).
    pose proof (arguments_cover _ _ IT _ _ _ _ _ _ _ _ _ El Hr IE IA) as Cov. destruct (arguments_flags _ _ _ _ _ _ _ _ Hr) as [FL FA].
    rewrite (FL eq_refl), (FA eq_refl) in Cov. cbn [map app] in Cov.
    assert (CA : can_be_called [Var a]).
    { intros n k I. cbn in I. destruct I as [I|[]]. subst a. apply (CC n k). apply in_concat. exists (atoms e). split; auto. apply in_map; auto. }
    pose proof Hr as Hr'. unfold CasModel.arguments_of in Hr'. rewrite El in Hr'. cbn [rbind] in Hr'.
    destruct (r_groups _ _ _ _ _ _ Hr') as (gq & gv & ga & gu & Hq & Hu & Rq & Rv & _).
    assert (NS : Forall (fun n => n <> ""%string /\ n <> "q"%string) names).
    { eapply Forall_impl; [|exact SN]. intros n (d & Hd & ->). split; [discriminate|]. intros F; injection F as ->. discriminate. }
    rewrite coords_groups in Hq by auto. injection Hq as <- <- _.
    assert (NOT : forall k, (k < 2)%nat -> ~ In (called a) (map symb_of (coords k names))).
    { intros k Hk I. apply in_map_iff in I. destruct I as (b & E & I). apply coords_in in I. destruct I as (n & In_ & ->).
      destruct (short_symb n k) as (s & Es & Ns); [rewrite Forall_forall in SN; auto|]. rewrite Es in E. symmetry in E. apply (Ns Hk). apply (called_fixed _ _ CA E). }
    rewrite !in_app_iff, Rq, Rv in Cov. destruct Cov as [Cv|[Cv|[Cv|Cv]]]; [destruct (NOT 0%nat ltac:(lia) Cv)|destruct (NOT 1%nat ltac:(lia) Cv)| |].
    + rewrite Eu in Eu'. clear -Eu' Cv. induction (r_u r) as [|x l IH]; [destruct Cv|]. cbn in Eu'. injection Eu' as E1 E2. destruct Cv as [<-|Cv]; auto.
    + rewrite Ep in Ep'. rewrite in_map_iff in Cv. destruct Cv as (s & Es & Is). rewrite <- Es. clear -Ep' Is.
      induction (r_params r) as [|x l IH]; [destruct Is|]. cbn in Ep'. injection Ep' as E1 E2. destruct Is as [<-|Is]; auto.
  - rewrite Eq', Ev', Eu', Ep'. rewrite (to_casadi_q _ _ IT _ _ _ _ _ Hr Hf val'). rewrite Ln, L, Nat.eqb_refl. reflexivity.
Qed.
(** Controls given as dynamic symbols are not found in the expressions. *)
Theorem dynamic_controls_ignored RHS Q names f : RHS <> [] -> to_casadi RHS Q (U_list (coords 0 names)) "x" = Ok f ->
  forall x u u' p, length u = length u' -> cas_call f [x; u; p] = cas_call f [x; u'; p].
Proof.
  intros NE Hf x u u' p LU.
  destruct (to_casadi_arguments _ _ IT _ _ _ _ _ Hf) as [r Hr]. pose proof (sizes_x _ _ IT _ _ _ _ _ Hr Hf) as Sz.
  pose proof (proj1 (arguments_lengths _ _ _ _ _ _ _ _ Hr)) as LV.
  destruct (list_eq_dec Nat.eq_dec (map (@length R) [x; u; p]) (cf_sizes f)) as [EZ|NZ].
  2:{ rewrite !cas_sizes; auto. cbn [map] in *. rewrite <- LU. auto. }
  rewrite Sz in EZ. cbn [map] in EZ. injection EZ as Lx Lu Lp.
  destruct (every_argument _ _ IT _ _ _ _ _ _ x u p NE Hr Hf) as (val & Ex & Eu & Ep); auto.
  destruct (every_argument _ _ IT _ _ _ _ _ _ x u' p NE Hr Hf) as (val' & Ex' & Eu' & Ep'); auto; [congruence|].
  assert (AG : forall a, In a (r_q r ++ r_v r) -> val a = val' a).
  { rewrite Ex in Ex'. clear -Ex'. revert Ex'. generalize (r_q r ++ r_v r). induction l as [|b l IH]; cbn [map]; intros E a; [intros []|]. injection E as A B. intros [<-|Ha]; auto. }
  assert (AP : forall s, In s (r_params r) -> val (Static s) = val' (Static s)).
  { rewrite Ep in Ep'. clear -Ep'. revert Ep'. generalize (r_params r). induction l as [|b l IH]; cbn [map]; intros E a; [intros []|]. injection E as A B. intros [<-|Ha]; auto. }
  assert (UD : forall a, In a (r_u r) -> exists n, a = Dyn n 0).
  { intros a Ha. pose proof Hr as Hr'. unfold CasModel.arguments_of in Hr'. destruct (mapm normal RHS); cbn [rbind] in Hr'; [|discriminate].
    rewrite find_arguments_eq in Hr'. destruct (q_groups Q) as [[[q v] b]|]; cbn [rbind] in Hr'; [|discriminate]. cbn [u_group rbind] in Hr'. cbv zeta in Hr'. injection Hr' as <-.
    cbn [r_u] in Ha. apply coords_in in Ha. destruct Ha as (n & _ & ->). eauto. }
  assert (K : map (value val) RHS = map (value val') RHS).
  { apply map_ext_in. intros e He. unfold value. apply eval_ext. intros a Ha.
    assert (exists l', mapm normal RHS = Ok l') as [l' El].
    { unfold CasModel.arguments_of in Hr. destruct (mapm normal RHS); cbn in Hr; [eauto|discriminate]. }
    pose proof (proj1 (normals _ _ IT _ _ El)) as EL. pose proof (proj1 (normals_ok _ _ IT _) (ex_intro _ _ El)) as CC.
    assert (IA : In (called a) (atoms (rename called e))) by (rewrite atoms_rename; apply in_map; auto).
    assert (IE : In (rename called e) l') by (rewrite EL; apply in_map; auto).
    pose proof (arguments_cover _ _ IT _ _ _ _ _ _ _ _ _ El Hr IE IA) as Cov. destruct (arguments_flags _ _ _ _ _ _ _ _ Hr) as [FL FA].
    rewrite (FL eq_refl), (FA eq_refl) in Cov. cbn [map app] in Cov.
    assert (CS : exists s, called a = Static s).
    { destruct (called_static a) as (s & Es & _); [|eauto]. intros n k ->. apply (CC n k). apply in_concat. exists (atoms e). split; auto. apply in_map; auto. }
    destruct CS as [s Es]. rewrite !in_app_iff in Cov. destruct Cov as [Cv|[Cv|[Cv|Cv]]].
    - apply AG, in_app_iff; auto.
    - apply AG, in_app_iff; auto.
    - destruct (UD _ Cv) as [n En]. congruence.
    - apply in_map_iff in Cv. destruct Cv as (z & Ez & Iz). rewrite <- Ez. apply AP; auto. }
  pose proof (to_casadi_x _ _ IT _ _ _ _ _ Hr Hf val) as V. pose proof (to_casadi_x _ _ IT _ _ _ _ _ Hr Hf val') as V'.
  rewrite <- Ex, <- Eu, <- Ep in V. rewrite <- Ex', <- Eu', <- Ep' in V'. rewrite V, V', K. do 2 f_equal.
  destruct (_ =? _)%nat; auto. apply map_ext_in. intros a Ha. apply AG, in_app_iff. auto.
Qed.
End Orders.
