(** Proofs about inverse dynamics. *)
From Coq Require Import String Sorted Permutation.
From Coquelicot Require Import Coquelicot.
From Verif Require Import Prelude PreludeFacts PwInterpModel SymModel SymSpec SymProofs LagrModel LagrSpec LagrFacts LagrProofs LagrAlgebra LagrMoreProofs LagrMotionProofs PinvModel PinvSpec.
Open Scope R_scope.
Open Scope list_scope.

(** ** Dependencies *)
Lemma base_of_eq n k : base_of n k = Dyn n 0.
Proof. induction k; cbn; auto. Qed.
Lemma deps_fold l : forall acc, NoDup acc ->
  let r := fold_left (fun l sym => let base := deriv_base sym in if in_dec atom_eq_dec base l then l else l ++ [base]) l acc in
  NoDup r /\ forall b, In b r <-> In b acc \/ In b (map deriv_base l).
Proof.
  induction l as [|a l IH]; intros acc H; cbn [fold_left map].
  - split; auto. intros b. cbn. tauto.
  - cbv zeta. destruct (in_dec atom_eq_dec (deriv_base a) acc) as [Hi|Hi].
    + destruct (IH acc H) as [A B]. split; [exact A|]. intros b. rewrite (B b). cbn [In]. split; [tauto|]. intros [?|[<-|?]]; auto.
    + assert (N : NoDup (acc ++ [deriv_base a])).
      { apply (Permutation_NoDup (l := deriv_base a :: acc)); [apply Permutation_cons_append|]. constructor; auto. }
      destruct (IH _ N) as [A B]. split; [exact A|]. intros b. rewrite (B b), in_app_iff. cbn [In]. tauto.
Qed.
Lemma dependencies_spec l : Forall (fun a => is_dyn a = true) l ->
  NoDup (find_dyn_dependencies l) /\ forall b, In b (find_dyn_dependencies l) <-> exists n k, In (Dyn n k) l /\ b = Dyn n 0.
Proof.
  intros F. destruct (deps_fold l [] (NoDup_nil _)) as [A B]. split; [exact A|]. intros b. unfold find_dyn_dependencies. rewrite (B b), in_map_iff. cbn [In].
  split.
  - intros [[]|(a & <- & Ha)]. rewrite Forall_forall in F. specialize (F a Ha). destruct a as [x|n k]; [discriminate|]. exists n, k. split; auto. apply base_of_eq.
  - intros (n & k & H & ->). right. exists (Dyn n k). split; auto. apply base_of_eq.
Qed.

(** ** The constraint forces *)
Section Constrained.
Variables (s : lagrange) (us : list atom) (E : nat -> nat -> R) (h : nat -> R) (pinv : nat -> nat -> emat -> emat).
Variables (g : R -> env) (t : R).
Hypothesis names : NoDup (lg_qs s).
Hypothesis level : up_to 1 (lg_L s).
Hypothesis noacc : forall i, (i < lg_n s)%nat -> no_acc (lg_qs s) (lg_forces s i).
Hypothesis Hg : motion g.
Hypothesis smooth : forall x, smooth_at (g x) (lg_L s).
Hypothesis affine : affine_controls s us (g t) E h.
Let P := ev (g t) (pinv (lg_n s) (length us) (pinv_E s us)).
Lemma pinv_with_forces l :
  (forall k l, (k < length us)%nat -> (l < length us)%nat -> rsum (lg_n s) (fun i => P k i * E i l) = delta k l) ->
  obeys s g t l ->
  forall k, (k < length us)%nat ->
  eval (g t) (sym_pinv_dyn_simp pinv s us k) =
  g t (nth k us (Static ""%string)) + rsum (lg_n s) (fun i => P k i * constraint_force s (g t) l i).
Proof.
  intros HP Ho k Hk.
  rewrite (pinv_simp_value s us (g t) E (fun i => h i - eval (g t) (qdd_zero (lg_qs s) (Minus (term1 s i) (term2 s i))))).
  2:{ intros v i Hi Hv. exact (f_affine s us E h g t noacc affine v i Hi Hv). }
  fold P. set (Z := fun i => _ - _).
  rewrite (mv_ext (lg_n s) P P Z (fun i => mv (length us) E (fun l => g t (nth l us (Static ""%string))) i + constraint_force s (g t) l i) k); auto.
  - unfold mv at 1. rewrite (rsum_ext (lg_n s) _ (fun i => P k i * mv (length us) E (fun l => g t (nth l us (Static ""%string))) i + P k i * constraint_force s (g t) l i)) by (intros; ring).
    rewrite rsum_plus. f_equal. change (mv (lg_n s) P (mv (length us) E (fun l => g t (nth l us (Static ""%string)))) k = g t (nth k us (Static ""%string))).
    rewrite <- mv_mm. apply (mv_id (length us) _ (fun l => g t (nth l us (Static ""%string))) k); auto. intros; apply HP; auto.
  - intros i Hi. unfold Z. pose proof (mass_row s g t names level noacc Hg smooth i Hi) as X. rewrite (Ho i Hi) in X. fold (constraint_force s (g t) l i) in X.
    rewrite (f_affine s us E h g t noacc affine (g t) i Hi) in X by auto.
    unfold mv at 2. lra.
Qed.
End Constrained.

(** ** The parameters *)
Lemma union_spec m : forall l, (NoDup l -> NoDup (union l m)) /\ forall x, In x (union l m) <-> In x l \/ In x m.
Proof.
  induction m as [|y m IH]; intros l; cbn [union fold_left].
  - split; auto. intros x; cbn; tauto.
  - fold (union (add_if_not_there y l) m). destruct (IH (add_if_not_there y l)) as [A B]. split.
    + intros H. apply A, add_nodup, H.
    + intros x. rewrite B, add_in. cbn [In]. intuition.
Qed.
Lemma union_fold exprs : forall l, NoDup l ->
  let r := fold_left (fun l e => union l (static_names e)) exprs l in
  NoDup r /\ forall x, In x r <-> In x l \/ exists e, In e exprs /\ In x (static_names e).
Proof.
  induction exprs as [|e exprs IH]; intros l N; cbn [fold_left].
  - split; auto. intros x. split; [tauto|]. intros [H|(e & [] & _)]; auto.
  - cbv zeta. destruct (union_spec (static_names e) l) as [A B]. destruct (IH _ (A N)) as [C D]. split; [exact C|].
    intros x. rewrite (D x), B. split.
    + intros [[H|H]|(e' & H & H')]; [tauto| |]; right; [exists e|exists e']; cbn; auto.
    + intros [H|(e' & [->|H] & H')]; [tauto|tauto|]. right. exists e'. auto.
Qed.
Lemma static_names_in x e : In x (static_names e) <-> In (Static x) (atoms e) \/ (x = "dummy"%string /\ exists n k, In (Dyn n k) (atoms e)).
Proof.
  unfold static_names. rewrite in_flat_map. split.
  - intros (a & Ha & Hx). destruct a as [y|n k]; destruct Hx as [<-|[]]; [left; auto|right; split; eauto].
  - intros [H|(-> & n & k & H)]; [exists (Static x)|exists (Dyn n k)]; cbn; auto.
Qed.
Lemma remove_controls us : forall l, NoDup l ->
  let r := fold_left (fun l act => match act with Static a => if mem_s a l then filter (fun x => negb (x =? a)%string) l else l | Dyn _ _ => l end) us l in
  NoDup r /\ forall x, In x r <-> In x l /\ ~ In (Static x) us.
Proof.
  induction us as [|u us IH]; intros l N; cbn [fold_left].
  - split; auto. intros x; cbn; tauto.
  - cbv zeta. destruct u as [a|n k].
    + destruct (mem_s a l) eqn:Em.
      * destruct (IH _ (NoDup_filter (fun x => negb (x =? a)%string) N)) as [A B]. split; [exact A|]. intros x. rewrite (B x), filter_In. cbn [In].
        destruct (String.eqb_spec x a) as [->|Hn]; cbn [negb].
        -- split; [intros [[_ ?] _]; discriminate|]. intros [_ H]. exfalso. apply H. auto.
        -- split; [intros [[? _] ?]; split; auto; intros [E|?]; [injection E as E; congruence|auto]|]. intros [? H]. split; [auto|]. tauto.
      * destruct (IH l N) as [A B]. split; [exact A|]. intros x. rewrite (B x). cbn [In]. split; [|tauto].
        intros [H H']. split; auto. intros [E|?]; auto. injection E as ->. apply mem_s_spec in H. congruence.
    + destruct (IH l N) as [A B]. split; [exact A|]. intros x. rewrite (B x). cbn [In]. split; [|tauto].
      intros [H H']. split; auto. intros [E|?]; auto. discriminate E.
Qed.
Lemma find_params_spec exprs us l : find_params exprs us = Ok l ->
  NoDup l /\ forall x, In x l <-> x <> "dummy"%string /\ ~ In (Static x) us /\ exists e, In e exprs /\ has_name x e.
Proof.
  unfold find_params. destruct (union_fold exprs [] (NoDup_nil _)) as [N U]. cbv zeta in N, U. set (pl := fold_left _ exprs []) in *.
  destruct (mem_s "dummy" pl) eqn:Em; cbn [negb]; [|discriminate]. intros H; injection H as <-.
  destruct (remove_controls us _ (NoDup_filter (fun x => negb (x =? "dummy")%string) N)) as [A B]. split; [exact A|]. intros x. rewrite (B x), filter_In, U.
  destruct (String.eqb_spec x "dummy") as [->|Hn]; cbn [negb].
  - split; [intros [[_ ?] _]; discriminate|]. intros [? _]. congruence.
  - unfold has_name. split.
    + intros [[[[]|(e & He & Hx)] _] Hu]. split; auto. split; auto. exists e. split; auto. apply static_names_in in Hx as [?|[? _]]; [auto|congruence].
    + intros (_ & Hu & e & He & Hx). split; auto. split; auto. right. exists e. split; auto. apply static_names_in. auto.
Qed.

(** ** Evaluation of the arguments *)
Lemma lookup_combine rho : forall args a, lookup (combine args (map rho args)) a = if in_dec atom_eq_dec a args then Some (rho a) else None.
Proof.
  induction args as [|b args IH]; intros a; [reflexivity|]. unfold lookup. cbn [map combine List.find fst snd].
  destruct (atom_eq_dec b a) as [->|Hn].
  - destruct (in_dec _ _ _) as [|H]; [reflexivity|]. exfalso. apply H. cbn; auto.
  - fold (lookup (combine args (map rho args)) a). rewrite IH. destruct (in_dec atom_eq_dec a args) as [H|H], (in_dec atom_eq_dec a (b :: args)) as [H'|H']; auto.
    + exfalso. apply H'. right; auto.
    + exfalso. destruct H'; auto.
Qed.
Lemma eval_args_ok rho args e : incl (atoms e) args -> eval_args (combine args (map rho args)) e = Ok (eval rho e).
Proof.
  induction e as [r | b | e1 IH1 e2 IH2 | e1 IH1 e2 IH2 | f k e IH]; cbn [eval_args eval atoms]; intros H; auto.
  - rewrite lookup_combine. destruct (in_dec _ _ _) as [|N]; auto. exfalso. apply N, H. cbn; auto.
  - rewrite IH1, IH2; auto; intros a Ha; apply H, in_or_app; auto.
  - rewrite IH1, IH2; auto; intros a Ha; apply H, in_or_app; auto.
  - rewrite IH; auto.
Qed.
Lemma eval_args_err rho args e : ~ incl (atoms e) args -> eval_args (combine args (map rho args)) e = Err NameError.
Proof.
  assert (D : forall e, {incl (atoms e) args} + {~ incl (atoms e) args}).
  { intros e0. destruct (forallb (fun a => if in_dec atom_eq_dec a args then true else false) (atoms e0)) eqn:F.
    - left. intros a Ha. rewrite forallb_forall in F. specialize (F a Ha). destruct (in_dec _ _ _); [auto|discriminate].
    - right. intros I. rewrite <- not_true_iff_false in F. apply F. apply forallb_forall. intros a Ha. destruct (in_dec _ _ _); auto. }
  induction e as [r | b | e1 IH1 e2 IH2 | e1 IH1 e2 IH2 | f k e IH]; cbn [eval_args atoms]; intros H.
  - exfalso. apply H. intros a [].
  - rewrite lookup_combine. destruct (in_dec _ _ _) as [N|]; auto. exfalso. apply H. intros a [<-|[]]; auto.
  - destruct (D e1) as [D1|D1].
    + rewrite eval_args_ok by auto. cbn [rbind]. rewrite IH2; auto. intros D2. apply H. apply incl_app; auto.
    + rewrite IH1; auto.
  - destruct (D e1) as [D1|D1].
    + rewrite eval_args_ok by auto. cbn [rbind]. rewrite IH2; auto. intros D2. apply H. apply incl_app; auto.
    + rewrite IH1; auto.
  - rewrite IH; auto.
Qed.

(** ** num_pinv_dyn *)
Section Num.
Variables (pinv : nat -> nat -> emat -> emat) (tidy : expr -> expr) (s : lagrange) (us : list atom).
Let n := lg_n s.
Definition used (i : nat) : expr := tidy (emulv n (m_d s) (f_d s) i).
Lemma q_vec_map k : q_vec s k = map (fun x => Dyn x k) (lg_qs s).
Proof.
  unfold q_vec, lg_q, qd, lg_n. apply nth_ext with (d := Static ""%string) (d' := Static ""%string); rewrite !map_length, seq_length; auto.
  intros i Hi. rewrite nth_map_seq by auto. rewrite (nth_indep _ _ (Dyn ""%string k)) by (now rewrite map_length). symmetry. apply (map_nth (fun x => Dyn x k)).
Qed.
Lemma values_map k rho : values_of s k rho = map rho (q_vec s k).
Proof. rewrite q_vec_map, map_map. reflexivity. Qed.
Lemma exhaustive_names x l : exhaustive_expr tidy s = Ok l -> ((exists e, In e l /\ has_name x e) <-> exists i, (i < n)%nat /\ has_name x (used i)).
Proof.
  unfold exhaustive_expr. destruct (lg_coneqs s); [|discriminate]. intros H; injection H as <-. split.
  - intros (e & He & Hx). apply in_app_or in He as [He|He]; apply in_map_iff in He as (i & <- & Hi); apply in_seq in Hi.
    + destruct Hx as [Hx|[]]; discriminate Hx.
    + exists i. split; [unfold n; lia|exact Hx].
  - intros (i & Hi & Hx). exists (used i). split; [|exact Hx]. apply in_or_app. right. apply in_map_iff. exists i. split; [reflexivity|]. apply in_seq. unfold n in Hi. lia.
Qed.
Lemma args_cases ps a : In a (q_vec s 0 ++ q_vec s 1 ++ q_vec s 2 ++ map Static ps) <->
  (exists x k, a = Dyn x k /\ In x (lg_qs s) /\ (k <= 2)%nat) \/ (exists x, a = Static x /\ In x ps).
Proof.
  rewrite !in_app_iff, !q_vec_map, !in_map_iff. split.
  - intros [(x & <- & H)|[(x & <- & H)|[(x & <- & H)|(x & <- & H)]]].
    + left. exists x, 0%nat. auto.
    + left. exists x, 1%nat. auto.
    + left. exists x, 2%nat. auto.
    + right. eauto.
  - intros [(x & k & -> & H & Hk)|(x & -> & H)].
    + destruct k as [|[|[|k]]]; [left|right; left|right; right; left|lia]; exists x; auto.
    + right; right; right. exists x; auto.
Qed.
Lemma only_args_incl ps e : only_args s ps e <-> incl (atoms e) (q_vec s 0 ++ q_vec s 1 ++ q_vec s 2 ++ map Static ps).
Proof. unfold only_args, incl. split; intros H a Ha; apply args_cases; auto; apply H; auto. Qed.
Lemma mapm_ok {A B} (f : A -> Res B) g l : (forall a, In a l -> f a = Ok (g a)) -> mapm f l = Ok (map g l).
Proof. induction l as [|a l IH]; intros H; cbn [mapm map]; auto. rewrite H by (cbn; auto). cbn [rbind]. rewrite IH; auto. intros; apply H; cbn; auto. Qed.
Lemma mapm_err {A B} (f : A -> Res B) (g : A -> B) x l : (forall a, In a l -> f a = Ok (g a) \/ f a = Err x) -> (exists a, In a l /\ f a = Err x) -> mapm f l = Err x.
Proof.
  induction l as [|a l IH]; intros H [b [Hb E]]; [destruct Hb|]. cbn [mapm]. destruct (H a) as [Ha|Ha]; [cbn; auto| |].
  - rewrite Ha. cbn [rbind]. rewrite IH; auto.
    + intros; apply H; cbn; auto.
    + destruct Hb as [->|Hb]; [rewrite Ha in E; discriminate|]. eauto.
  - rewrite Ha. reflexivity.
Qed.
Theorem num_pinv_call F : tidies tidy -> simp_num_pinv_dyn pinv tidy true s us = Ok F ->
  exists ps, StronglySorted (fun x y => (x <=? y)%string = true) ps /\ NoDup ps /\
  (forall x, In x ps <-> x <> "dummy"%string /\ ~ In (Static x) us /\ exists i, (i < n)%nat /\ has_name x (used i)) /\
  forall rho, let call := F (values_of s 0 rho) (values_of s 1 rho) (values_of s 2 rho) (map (fun x => rho (Static x)) ps) in
    ((forall k, (k < length us)%nat -> only_args s ps (tidy (sym_pinv_dyn_simp pinv s us k))) ->
       call = Ok (map (fun k => eval rho (sym_pinv_dyn_simp pinv s us k)) (seq 0 (length us)))) /\
    ((exists k, (k < length us)%nat /\ ~ only_args s ps (tidy (sym_pinv_dyn_simp pinv s us k))) -> call = Err NameError).
Proof.
  intros HT. unfold simp_num_pinv_dyn, simp_sym_pinv_dyn. cbn [negb]. destruct us as [|u us'] eqn:Eus; [discriminate|]. rewrite <- Eus in *. cbn [rbind].
  destruct (exhaustive_expr tidy s) as [ex|] eqn:Eex; cbn [rbind]; [|discriminate].
  destruct (find_params ex us) as [pl|] eqn:Epl; cbn [rbind]; [|discriminate].
  destruct (existsb _ _); [discriminate|]. intros H; injection H as <-.
  destruct (find_params_spec _ _ _ Epl) as [ND IN].
  exists (sorted pl). split; [apply strongly_sorted_leb, sorted_sorted|]. split; [exact (Permutation_NoDup (sorted_perm pl) ND)|]. split.
  { intros x. rewrite sorted_in, IN, (exhaustive_names x ex Eex). reflexivity. }
  intros rho. cbv zeta. unfold lambdify4. rewrite !values_map, !map_length, !Nat.eqb_refl. cbn [andb negb].
  replace (map (fun x => rho (Static x)) (sorted pl)) with (map rho (map Static (sorted pl))) by (rewrite map_map; reflexivity).
  rewrite <- !map_app. split.
  - intros HA. rewrite (mapm_ok _ (eval rho)).
    + rewrite map_map. f_equal. apply map_ext. intros k. apply (proj1 (HT _)).
    + intros e He. apply eval_args_ok. apply in_map_iff in He as (k & <- & Hk). apply in_seq in Hk. apply only_args_incl, HA. lia.
  - intros (k & Hk & HA). apply (mapm_err _ (eval rho)).
    + intros e _. destruct (in_dec Bool.bool_dec true [forallb (fun a => if in_dec atom_eq_dec a (q_vec s 0 ++ q_vec s 1 ++ q_vec s 2 ++ map Static (sorted pl)) then true else false) (atoms e)]) as [[F|[]]|F].
      * left. apply eval_args_ok. intros a Ha. rewrite forallb_forall in F. specialize (F a Ha). destruct (in_dec _ _ _); [auto|discriminate].
      * right. apply eval_args_err. intros I. apply F. left. apply forallb_forall. intros a Ha. destruct (in_dec _ _ _); auto.
    + exists (tidy (sym_pinv_dyn_simp pinv s us k)). split; [apply in_map_iff; exists k; split; auto; apply in_seq; lia|]. apply eval_args_err. rewrite <- only_args_incl. exact HA.
Qed.
(** When it makes a function. *)
Lemma deps_single ds : is_dyn ds = true -> exists x k, ds = Dyn x k /\ nth 0 (find_dyn_dependencies [ds]) ds = Dyn x 0.
Proof. destruct ds as [|x k]; [discriminate|]. intros _. exists x, k. split; auto. cbn. apply base_of_eq. Qed.
Theorem num_pinv_made : us <> [] -> lg_coneqs s = [] -> (0 < n)%nat ->
  ((exists F, simp_num_pinv_dyn pinv tidy true s us = Ok F) <->
   (forall i x k, (i < n)%nat -> In (Dyn x k) (atoms (used i)) -> In x (lg_qs s) \/ In (Dyn x 0) us)) /\
  (~ (forall i x k, (i < n)%nat -> In (Dyn x k) (atoms (used i)) -> In x (lg_qs s) \/ In (Dyn x 0) us) ->
   simp_num_pinv_dyn pinv tidy true s us = Err AttributeError).
Proof.
  intros Hu Hc Hn. unfold simp_num_pinv_dyn.
  assert (Es : exists l, simp_sym_pinv_dyn pinv tidy true s us = Ok l) by (unfold simp_sym_pinv_dyn; cbn [negb]; destruct us; [congruence|eauto]).
  destruct Es as [sl ->]. cbn [rbind].
  unfold exhaustive_expr. rewrite Hc. cbn [rbind]. fold n. set (ex := _ ++ _).
  assert (Epl : exists pl, find_params ex us = Ok pl).
  { unfold find_params. destruct (union_fold ex [] (NoDup_nil _)) as [N U]. cbv zeta in N, U.
    replace (mem_s "dummy" _) with true; [cbn [negb]; eauto|]. symmetry. apply mem_s_spec, U. right. exists (Var (lg_q s 1 0)). split.
    - apply in_or_app. left. apply in_map_iff. exists 0%nat. split; auto. apply in_seq. lia.
    - apply static_names_in. right. split; auto. unfold lg_q, qd. cbn. eauto. }
  destruct Epl as [pl ->]. cbn [rbind].
  set (cond := forall i x k, (i < n)%nat -> In (Dyn x k) (atoms (used i)) -> In x (lg_qs s) \/ In (Dyn x 0) us).
  assert (T : existsb (fun ds => let base_sym := nth 0 (find_dyn_dependencies [ds]) ds in
                        negb (if in_dec atom_eq_dec base_sym (q_vec s 0) then true else false) &&
                        negb (if in_dec atom_eq_dec base_sym us then true else false)) (filter is_dyn (flat_map atoms ex)) = false <-> cond).
  { rewrite <- not_true_iff_false, existsb_exists. split.
    - intros H i x k Hi Hin.
      destruct (in_dec atom_eq_dec (Dyn x 0) us) as [|Nu]; auto. left.
      destruct (in_dec string_dec x (lg_qs s)) as [|Nq]; auto. exfalso. apply H. exists (Dyn x k). split.
      + apply filter_In. split; auto. apply in_flat_map. exists (used i). split; auto. apply in_or_app. right. apply in_map_iff. exists i. split; auto. apply in_seq. lia.
      + cbv zeta. destruct (deps_single (Dyn x k) eq_refl) as (x' & k' & E1 & ->). injection E1 as <- <-.
        destruct (in_dec atom_eq_dec (Dyn x 0) us); [contradiction|]. destruct (in_dec atom_eq_dec (Dyn x 0) (q_vec s 0)) as [B|]; [|reflexivity].
        rewrite q_vec_map in B. apply in_map_iff in B as (y & E2 & Hy). injection E2 as ->. contradiction.
    - intros H (ds & Hds & Ht). apply filter_In in Hds as [Hds Hd]. destruct (deps_single ds Hd) as (x & k & -> & E1). rewrite E1 in Ht. cbv zeta in Ht.
      apply in_flat_map in Hds as (e & He & Ha). apply in_app_or in He as [He|He]; apply in_map_iff in He as (i & <- & Hi); apply in_seq in Hi.
      + destruct Ha as [Ha|[]]. unfold lg_q, qd in Ha. injection Ha as <- <-.
        destruct (in_dec atom_eq_dec _ (q_vec s 0)) as [|B]; [discriminate|]. apply B. rewrite q_vec_map. apply in_map_iff. eexists. split; [reflexivity|]. apply nth_In. unfold n, lg_n in *. lia.
      + destruct (H i x k ltac:(lia) Ha) as [B|B].
        * destruct (in_dec atom_eq_dec _ (q_vec s 0)) as [|C]; [discriminate|]. apply C. rewrite q_vec_map. apply in_map_iff. eauto.
        * destruct (in_dec atom_eq_dec (Dyn x 0) us); [|contradiction]. rewrite andb_false_r in Ht. discriminate. }
  split.
  - split.
    + intros [F H]. apply T. destruct (existsb _ _); [discriminate|reflexivity].
    + intros H. apply T in H. destruct (existsb _ _); [discriminate H|eauto].
  - intros H. destruct (existsb _ _); auto. exfalso. apply H, T. reflexivity.
Qed.
End Num.
