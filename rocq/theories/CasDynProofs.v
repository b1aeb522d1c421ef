From Coq Require Import String Ascii Permutation.
From Verif Require Import Prelude PwInterpModel SymModel SymSpec SymProofs PlotModel PlotSpec PlotNameProofs FuncDynModel FuncDynSpec CasModel CasSpec CasProofs CasRhsProofs CasNameProofs.
Open Scope R_scope.
Open Scope list_scope.

Lemma nodup_map_in {A B} (f : A -> B) l : NoDup l -> (forall x y, In x l -> In y l -> f x = f y -> x = y) -> NoDup (map f l).
Proof.
  induction 1 as [|a l Ha Hl IH]; intros H; cbn [map]; [constructor|]. constructor.
  - rewrite in_map_iff. intros (b & E & Hb). assert (b = a) by (apply H; cbn; auto). subst; auto.
  - apply IH. intros; apply H; cbn; auto.
Qed.
Lemma coords_in k names a : In a (coords k names) <-> exists n, In n names /\ a = Dyn n k.
Proof. unfold coords. rewrite in_map_iff. split; intros (n & A & B); exists n; auto. Qed.
Lemma coords_nodup k names : NoDup names -> NoDup (coords k names).
Proof. intros H. apply FinFun.Injective_map_NoDup; auto. intros i j E; congruence. Qed.
Lemma coords_all_nodup names : NoDup names -> NoDup (coords 0 names ++ coords 1 names ++ coords 2 names).
Proof.
  intros H. apply nodup_app; [apply coords_nodup; auto|apply nodup_app; try (apply coords_nodup; auto)|].
  - intros x. rewrite !coords_in. intros (n & _ & ->) (m & _ & E). discriminate.
  - intros x. rewrite in_app_iff, !coords_in. intros (n & _ & ->) [(m & _ & E)|(m & _ & E)]; discriminate.
Qed.
Lemma clean_named n : clean_name n -> n <> ""%string /\ n <> "q"%string.
Proof. intros (A & B & _); auto. Qed.
Lemma symb_of_dyn n k : n <> ""%string /\ n <> "q"%string -> exists s, diff_to_symb (Dyn n k) = Ok s /\ symb_of (Dyn n k) = Static s.
Proof.
  intros H. destruct (proj2 (diff_to_symb_ok (Dyn n k))) as [s E]; [intros m j F; injection F as <- _; auto|].
  exists s; split; auto. apply symb_of_symb; auto.
Qed.
Lemma symb_of_inj n j m k : clean_name n -> clean_name m -> symb_of (Dyn n j) = symb_of (Dyn m k) -> n = m /\ j = k.
Proof.
  intros Hn Hm E. destruct (symb_of_dyn n j (clean_named _ Hn)) as (s & E1 & F1). destruct (symb_of_dyn m k (clean_named _ Hm)) as (s' & E2 & F2).
  rewrite F1, F2 in E. injection E as <-. destruct (diff_to_symb_injective (Dyn n j) (Dyn m k) s Hn Hm E1 E2) as [E|(x & [[E _]|[_ E]])]; try discriminate.
  injection E as -> ->; auto.
Qed.
Lemma named_nodup names : NoDup names -> Forall clean_name names ->
  NoDup (map symb_of (coords 0 names) ++ map symb_of (coords 1 names) ++ map symb_of (coords 2 names)).
Proof.
  intros ND C. rewrite Forall_forall in C. rewrite <- !map_app. apply nodup_map_in; [apply coords_all_nodup; auto|].
  assert (F : forall x, In x (coords 0 names ++ coords 1 names ++ coords 2 names) -> exists n k, In n names /\ x = Dyn n k).
  { intros x. rewrite !in_app_iff, !coords_in. intros [(n & A & ->)|[(n & A & ->)|(n & A & ->)]]; eauto. }
  intros x y Hx Hy E. destruct (F _ Hx) as (n & j & A & ->). destruct (F _ Hy) as (m & k & B & ->).
  destruct (symb_of_inj n j m k); auto. congruence.
Qed.
Lemma named_u_disjoint m names : Forall clean_name names -> (forall i, ~ In ("u_" ++ str_nat i)%string names) ->
  disjoint (numbered "u" m) (map symb_of (coords 0 names) ++ map symb_of (coords 1 names) ++ map symb_of (coords 2 names)).
Proof.
  intros C NU. rewrite Forall_forall in C. rewrite <- !map_app. intros x Hx Hy. apply in_map_iff in Hy. destruct Hy as (y & <- & Hy).
  assert (exists n k, In n names /\ y = Dyn n k) as (n & k & Hn & ->).
  { rewrite !in_app_iff, !coords_in in Hy. destruct Hy as [(n & A & ->)|[(n & A & ->)|(n & A & ->)]]; eauto. }
  destruct (symb_of_dyn n k (clean_named _ (C _ Hn))) as (s & E & F). rewrite F in Hx. apply numbered_in in Hx. destruct Hx as (i & _ & ->).
  assert (CU : clean_name ("u" ++ "_" ++ str_nat i)) by (apply clean_numbered; auto).
  destruct (diff_to_symb_injective (Static ("u" ++ "_" ++ str_nat i)) (Dyn n k) _ CU (C _ Hn) eq_refl E) as [G|(z & [[G1 G2]|[G1 _]])]; try discriminate.
  assert (EN : n = ("u_" ++ str_nat i)%string) by (transitivity z; [congruence|]; injection G1 as G1; symmetry; exact G1).
  apply (NU i). rewrite <- EN. auto.
Qed.
Lemma some_values (l : list atom) : NoDup l -> forall v : vec, length v = length l -> exists val, v = map val l.
Proof.
  induction 1 as [|a l Ha Hl IH]; intros [|x v] L; try discriminate; [exists (fun _ => 0); reflexivity|].
  injection L as L. destruct (IH v L) as [val ->]. exists (fun b => if atom_eq_dec b a then x else val b). cbn [map]. f_equal.
  - destruct (atom_eq_dec a a); congruence.
  - apply map_ext_in. intros b Hb. destruct (atom_eq_dec b a); congruence.
Qed.
Lemma cas_sizes f args : map (@length R) args <> cf_sizes f -> cas_call f args = Err RuntimeError.
Proof. unfold cas_call. destruct (list_eq_dec _ _ _); tauto. Qed.

Section Orders.
Variable dyn_order : expr -> list atom.
Variable sym_order : expr -> list string.
Hypothesis IT : iterates dyn_order sym_order.
Notation normal := (normal dyn_order sym_order).
Notation arguments_of := (arguments_of dyn_order sym_order).
Notation to_casadi := (rhs_to_casadi_function dyn_order sym_order).

Lemma to_casadi_arguments RHS Q U mode f : to_casadi RHS Q U mode = Ok f -> exists r, arguments_of RHS Q U false false = Ok r.
Proof.
  rewrite (to_casadi_eq _ _ IT). destruct (mapm normal RHS); cbn [rbind]; [|discriminate].
  destruct (arguments_of RHS Q U false false); cbn [rbind]; [eauto|discriminate].
Qed.
Lemma arguments_exist RHS Q U sl sa : can_be_called RHS -> (exists g, q_groups Q = Ok g) -> U <> U_other -> exists r, arguments_of RHS Q U sl sa = Ok r.
Proof.
  intros H [[[q v] a] Hq] HU. apply (normals_ok _ _ IT) in H. destruct H as [l' H]. unfold CasModel.arguments_of. rewrite H. cbn [rbind].
  rewrite find_arguments_eq, Hq. cbn [rbind]. destruct U; [| | |congruence]; cbn [u_group rbind]; eauto.
Qed.
Lemma arguments_nodup RHS Q U sl sa r : arguments_of RHS Q U sl sa = Ok r ->
  (forall q v a, q_groups Q = Ok (q, v, a) -> NoDup (q ++ v ++ a)) ->
  (forall sets q v a u, q_groups Q = Ok (q, v, a) -> u_group sets U = Ok u -> NoDup u /\ disjoint u (q ++ v ++ a)) ->
  NoDup (r_q r ++ r_v r ++ r_a r ++ r_u r ++ map Static (r_lambdas r) ++ map Static (r_params r)).
Proof.
  unfold CasModel.arguments_of. destruct (mapm normal RHS); cbn [rbind]; [|discriminate]. intros H D1 D2.
  apply (all_nodup _ _ _ _ _ _ H); auto. intros; eapply D2; eauto.
Qed.
Lemma arguments_nodup' RHS Q U r : arguments_of RHS Q U false false = Ok r ->
  (forall q v a, q_groups Q = Ok (q, v, a) -> NoDup (q ++ v ++ a)) ->
  (forall sets q v a u, q_groups Q = Ok (q, v, a) -> u_group sets U = Ok u -> NoDup u /\ disjoint u (q ++ v ++ a)) ->
  NoDup (r_q r ++ r_v r ++ r_u r ++ map Static (r_params r)).
Proof.
  intros H D1 D2. pose proof (arguments_nodup _ _ _ _ _ _ H D1 D2) as N. destruct (arguments_flags _ _ _ _ _ _ _ _ H) as [FL FA].
  rewrite (FL eq_refl), (FA eq_refl) in N. exact N.
Qed.

(** Numbered coordinates: there is always a function. *)
Theorem to_casadi_numbered RHS n U mode : standard_controls U -> RHS <> [] -> can_be_called RHS ->
  (length RHS = n \/ length RHS = 2 * n)%nat -> (mode = "x" \/ mode = "q")%string -> exists f, to_casadi RHS (Q_int n) U mode = Ok f.
Proof.
  intros HU NE C L M. destruct (arguments_exist RHS (Q_int n) U false false C) as [r Hr]; [cbn; eauto|destruct HU as [->|(m & ->)]; discriminate|].
  apply (to_casadi_iff _ _ IT _ _ _ _ r NE Hr). split; auto.
  pose proof Hr as Hr'. unfold CasModel.arguments_of in Hr'. destruct (mapm normal RHS); cbn [rbind] in Hr'; [|discriminate].
  destruct (r_groups _ _ _ _ _ _ Hr') as (q & v & a & u & Hq & Hu & Eq & Ev & Ea). cbn in Hq. injection Hq as <- <- <-.
  assert (LN : length (r_q r) = n) by (rewrite Eq; unfold numbered; rewrite map_length, seq_length; auto). rewrite LN. split; auto.
  apply (arguments_nodup' _ _ _ _ Hr); [apply numbered_groups|]. intros; eapply numbered_u; eauto.
Qed.
(** Named coordinates. *)
Lemma named_groups names q v a : Forall clean_name names -> q_groups (Q_list (coords 0 names)) = Ok (q, v, a) ->
  q = map symb_of (coords 0 names) /\ v = map symb_of (coords 1 names) /\ a = map symb_of (coords 2 names).
Proof.
  intros C. rewrite coords_groups by (eapply Forall_impl; [apply clean_named|auto]). intros E; injection E as <- <- <-; auto.
Qed.
Lemma named_ok names U r RHS : standard_controls U -> NoDup names -> Forall clean_name names -> (forall i, ~ In ("u_" ++ str_nat i)%string names) ->
  arguments_of RHS (Q_list (coords 0 names)) U false false = Ok r -> NoDup (r_q r ++ r_v r ++ r_u r ++ map Static (r_params r)).
Proof.
  intros HU ND C NU Hr. apply (arguments_nodup' _ _ _ _ Hr).
  - intros q v a Hq. destruct (named_groups _ _ _ _ C Hq) as (-> & -> & ->). apply named_nodup; auto.
  - intros sets q v a u Hq Hu. destruct (named_groups _ _ _ _ C Hq) as (-> & -> & ->).
    assert (exists m, u = numbered "u" m) as (m & ->) by (destruct HU as [->|(m & ->)]; cbn in Hu; injection Hu as <-; eauto).
    split; [apply numbered_nodup|apply named_u_disjoint; auto].
Qed.
Theorem to_casadi_named RHS names U mode : standard_controls U -> RHS <> [] -> can_be_called RHS ->
  NoDup names -> Forall clean_name names -> (forall i, ~ In ("u_" ++ str_nat i)%string names) ->
  (length RHS = length names \/ length RHS = 2 * length names)%nat -> (mode = "x" \/ mode = "q")%string ->
  exists f, to_casadi RHS (Q_list (coords 0 names)) U mode = Ok f.
Proof.
  intros HU NE CC ND C NU L M.
  destruct (arguments_exist RHS (Q_list (coords 0 names)) U false false CC) as [r Hr].
  - rewrite coords_groups by (eapply Forall_impl; [apply clean_named|auto]). eauto.
  - destruct HU as [->|(m & ->)]; discriminate.
  - apply (to_casadi_iff _ _ IT _ _ _ _ r NE Hr). split; auto. rewrite (arguments_q_list _ _ _ _ _ _ _ _ Hr).
    unfold coords at 1 2. rewrite map_length. split; auto. eapply named_ok; eauto.
Qed.

(** The right-hand side, at any state. *)
Lemma coords_args names U r RHS sl sa : Forall standard_name names -> arguments_of RHS (Q_list (coords 0 names)) U sl sa = Ok r ->
  r_q r = map called (coords 0 names) /\ r_v r = map called (coords 1 names) /\ (sa = true -> r_a r = map called (coords 2 names)).
Proof.
  intros H Hr. unfold CasModel.arguments_of in Hr. destruct (mapm normal RHS); cbn [rbind] in Hr; [|discriminate].
  destruct (r_groups _ _ _ _ _ _ Hr) as (q & v & a & u & Hq & Hu & Eq & Ev & Ea). rewrite coords_groups in Hq by (apply standard_ok; auto).
  injection Hq as <- <- <-. rewrite Eq, Ev, Ea, !coords_called by auto. repeat split. intros ->; auto.
Qed.
Lemma value_eval sigma val l : (forall a, In a (symbols_in l) -> val (called a) = sigma a) -> map (value val) l = map (eval sigma) l.
Proof.
  intros H. apply map_ext_in. intros e He. unfold value. apply eval_ext. intros a Ha. apply H. apply in_concat. exists (atoms e). split; auto. apply in_map; auto.
Qed.
Lemma coords_values k (sigma val : atom -> R) names : (forall n, In n names -> val (called (Dyn n k)) = sigma (Dyn n k)) -> map val (map called (coords k names)) = map sigma (coords k names).
Proof. intros H. unfold coords. rewrite !map_map. apply map_ext_in. auto. Qed.
Theorem to_casadi_motion RHS names U r f g : Forall standard_name names -> length RHS = length names ->
  arguments_of RHS (Q_list (coords 0 names)) U false false = Ok r ->
  to_casadi RHS (Q_list (coords 0 names)) U "x" = Ok f -> to_casadi RHS (Q_list (coords 0 names)) U "q" = Ok g ->
  forall sigma val, (forall a, In a (coords 0 names ++ coords 1 names ++ symbols_in RHS) -> val (called a) = sigma a) ->
  cas_call f [map sigma (coords 0 names ++ coords 1 names); map val (r_u r); map (fun s => val (Static s)) (r_params r)] =
    Ok (map sigma (coords 1 names) ++ map (eval sigma) RHS) /\
  cas_call g [map sigma (coords 0 names); map sigma (coords 1 names); map val (r_u r); map (fun s => val (Static s)) (r_params r)] =
    Ok (map (eval sigma) RHS).
Proof.
  intros HS L Hr Hf Hg sigma val HV. destruct (coords_args _ _ _ _ _ _ HS Hr) as (Eq & Ev & _).
  pose proof (to_casadi_x _ _ IT _ _ _ _ _ Hr Hf val) as X. pose proof (to_casadi_q _ _ IT _ _ _ _ _ Hr Hg val) as G.
  rewrite Eq, Ev in X, G. rewrite map_app in X |- *.
  assert (V : forall k, (k < 2)%nat -> map val (map called (coords k names)) = map sigma (coords k names)).
  { intros k Hk. apply coords_values. intros n Hn. apply HV. rewrite !in_app_iff, !coords_in. destruct k as [|[|k]]; [left; eauto|right; left; eauto|lia]. }
  rewrite !V in X, G by lia. rewrite (value_eval sigma) in X by (intros; apply HV; rewrite !in_app_iff; auto).
  assert (LL : (length (map called (coords 0 names)) =? length RHS)%nat = true) by (unfold coords; rewrite !map_length; apply Nat.eqb_eq; auto).
  rewrite LL in X, G. rewrite (value_eval sigma) in G by (intros; apply HV; rewrite !in_app_iff; auto). split; auto.
Qed.

(** Every vector is an argument: with the sizes there is a value, with other sizes
    an error. *)
Lemma sizes_x RHS Q U r f : arguments_of RHS Q U false false = Ok r -> to_casadi RHS Q U "x" = Ok f ->
  cf_sizes f = [(2 * length (r_q r))%nat; length (r_u r); length (r_params r)].
Proof.
  intros Hr. rewrite (to_casadi_eq _ _ IT). destruct (mapm normal RHS) as [l|]; cbn [rbind]; [|discriminate]. rewrite Hr. cbn [rbind].
  destruct (rhs_funcs_of r l "x") as [funcs|]; cbn [rbind]; [|discriminate]. destruct (mapm _ funcs); cbn [rbind]; [|discriminate].
  intros H; injection H as <-. unfold cf_sizes. cbn. rewrite app_length, map_length, (proj1 (arguments_lengths _ _ _ _ _ _ _ _ Hr)). repeat f_equal. lia.
Qed.
Lemma sizes_q RHS Q U r f : arguments_of RHS Q U false false = Ok r -> to_casadi RHS Q U "q" = Ok f ->
  cf_sizes f = [length (r_q r); length (r_q r); length (r_u r); length (r_params r)].
Proof.
  intros Hr. rewrite (to_casadi_eq _ _ IT). destruct (mapm normal RHS) as [l|]; cbn [rbind]; [|discriminate]. rewrite Hr. cbn [rbind].
  destruct (rhs_funcs_of r l "q") as [funcs|]; cbn [rbind]; [|discriminate]. destruct (mapm _ funcs); cbn [rbind]; [|discriminate].
  intros H; injection H as <-. unfold cf_sizes. cbn. rewrite map_length, (proj1 (arguments_lengths _ _ _ _ _ _ _ _ Hr)). reflexivity.
Qed.
Lemma app_split {A} (l : list A) n m : length l = (n + m)%nat -> exists a b, l = a ++ b /\ length a = n /\ length b = m.
Proof. intros H. exists (firstn n l), (skipn n l). rewrite firstn_skipn, firstn_length, skipn_length. repeat split; lia. Qed.
Theorem every_argument RHS Q U mode r f (x u p : vec) : RHS <> [] -> arguments_of RHS Q U false false = Ok r -> to_casadi RHS Q U mode = Ok f ->
  length x = (2 * length (r_q r))%nat -> length u = length (r_u r) -> length p = length (r_params r) ->
  exists val, x = map val (r_q r ++ r_v r) /\ u = map val (r_u r) /\ p = map (fun s => val (Static s)) (r_params r).
Proof.
  intros NE Hr Hf Lx Lu Lp. destruct (proj1 (to_casadi_iff _ _ IT _ _ _ _ _ NE Hr) (ex_intro _ _ Hf)) as (_ & _ & ND).
  pose proof (proj1 (arguments_lengths _ _ _ _ _ _ _ _ Hr)) as LV.
  destruct (some_values _ ND (x ++ u ++ p)) as [val E]; [rewrite !app_length, map_length; lia|].
  exists val. rewrite (app_assoc (r_q r)), (map_app val (r_q r ++ r_v r)), (map_app val (r_u r)), map_static in E. clear -E Lx Lu Lp LV.
  assert (G : forall (a b c d : vec), length a = length b -> a ++ c = b ++ d -> a = b /\ c = d).
  { induction a as [|y a IH]; intros [|z b] c d L H; try discriminate; auto. injection H as -> H. injection L as L. destruct (IH _ _ _ L H); subst; auto. }
  assert (L1 : length x = length (map val (r_q r ++ r_v r))) by (rewrite map_length, app_length, LV, Lx; lia).
  assert (L2 : length u = length (map val (r_u r))) by (rewrite map_length; auto).
  destruct (G _ _ _ _ L1 E) as [Ex E2]. destruct (G _ _ _ _ L2 E2) as [Eu Ep]. auto.
Qed.
End Orders.
