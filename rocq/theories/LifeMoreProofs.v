(** Proofs of the statements about sequences of method calls. *)
From Verif Require Import Prelude DispatchModel LifeModel LifeSpec LifeProofs.
Open Scope list_scope.

Lemma calls_on_calls : forall i ms, calls_on i ms = calls i ms.
Proof. reflexivity. Qed.

Lemma exec_all_keeps : forall p ms o l o' l' outs a, exec_all p ms o l = (o', l', outs) ->
  ~ In a (all_puts p ms) -> o' a = o a.
Proof.
  intros p. induction ms as [|m r IH]; intros o l o' l' outs a E N; cbn [exec_all] in E.
  - injection E as <- _ _. reflexivity.
  - destruct (exec m (code p m) None 0 [] o l) as [[o1 l1] out] eqn:E1.
    destruct (exec_all p r o1 l1) as [[o2 l2] outs2] eqn:E2. injection E as <- _ _.
    unfold all_puts in N. cbn [flat_map] in N.
    rewrite (IH _ _ _ _ _ a E2) by (intros I; apply N; apply in_or_app; right; exact I).
    apply (exec_keeps _ _ _ _ _ _ _ _ _ _ a E1). intros I. apply N. apply in_or_app. left. exact I.
Qed.

(** known after the two set-ups *)
Definition ready (p : opti_problem) (K : list attr) : list attr :=
  (K ++ puts (code p (M_dynamic_setup 0))) ++ puts (code p (M_opti_setup 0)).

Lemma setup_safe : forall p d o K, op_dyn p <> None -> (forall a, In a given_attrs -> In a K) ->
  safe_all p K [M_dynamic_setup d; M_opti_setup o] = true.
Proof.
  intros p d o K H I. cbn [safe_all].
  assert (S1 : safe given_attrs [L_q; L_rhs] (code p (M_dynamic_setup d)) 0 (given_attrs ++ puts (code p (M_dynamic_setup d))) = true).
  { classes p; try (exfalso; apply H; reflexivity); vm_compute; reflexivity. }
  assert (S2 : safe (given_attrs ++ puts (code p (M_dynamic_setup d))) [L_q; L_rhs] (code p (M_opti_setup o)) 0
     ((given_attrs ++ puts (code p (M_dynamic_setup d))) ++ puts (code p (M_opti_setup o))) = true).
  { classes p; try (exfalso; apply H; reflexivity); vm_compute; reflexivity. }
  rewrite andb_true_r. apply andb_true_intro. split.
  - apply (safe_mono _ given_attrs K _ _ _ _ I) with (2 := S1). intros a J. apply in_app_or in J.
    destruct J as [J|J]; [right; exact J|left; apply in_or_app; right; exact J].
  - apply (safe_mono _ _ (K ++ puts (code p (M_dynamic_setup d))) _ _ _ _) with (3 := S2).
    + intros a J. apply in_app_or in J. apply in_or_app. destruct J as [J|J]; [left; auto|right; exact J].
    + intros a J. apply in_app_or in J. destruct J as [J|J]; [right; exact J|left; apply in_or_app; right; exact J].
Qed.

Lemma call_safe : forall p m, op_dyn p <> None -> really_offered (op_sch p) m = true ->
  safe (if solves m then A_cost :: ready p given_attrs else ready p given_attrs) [L_q; L_rhs] (code p m) 0
       ((if solves m then A_cost :: ready p given_attrs else ready p given_attrs) ++ puts (code p m)) = true.
Proof.
  intros p m H O. classes p; try (exfalso; apply H; reflexivity); destruct m as [?|?| | |?|?|?|?| |[|?]];
    try discriminate O; vm_compute; reflexivity.
Qed.

Lemma calls_safe : forall p ms K chosen, op_dyn p <> None -> Forall (fun m => really_offered (op_sch p) m = true) ms ->
  (forall a, In a (ready p given_attrs) -> In a K) -> (chosen = true -> In A_cost K) ->
  cost_before_solve chosen ms = true -> safe_all p K ms = true.
Proof.
  intros p. induction ms as [|m r IH]; intros K chosen H F I C B; [reflexivity|].
  inversion F as [|? ? Om Fr]; subst. cbn [safe_all cost_before_solve] in *. apply andb_prop in B. destruct B as [B1 B2].
  apply andb_true_intro. split.
  - apply (safe_mono _ _ K _ _ _ _) with (3 := call_safe p m H Om).
    + intros a J. destruct (solves m); [|exact (I a J)]. cbn in B1. destruct J as [<-|J]; [exact (C B1)|exact (I a J)].
    + intros a J. apply in_app_or in J. destruct J as [J|J]; [right; exact J|left; apply in_or_app; right; exact J].
  - apply (IH _ (chosen || sets_cost m)%bool H Fr); [|intros X|exact B2].
    + intros a J. apply in_or_app. left. exact (I a J).
    + apply in_or_app. apply orb_prop in X. destruct X as [X|X]; [left; exact (C X)|right].
      destruct m; try discriminate X; cbn [code]; destruct (op_sch p); cbn in Om |- *; try discriminate Om; tauto.
Qed.

Lemma safe_all_app : forall p ms1 ms2 K, safe_all p K ms1 = true ->
  safe_all p (K ++ all_puts p ms1) ms2 = true -> safe_all p K (ms1 ++ ms2) = true.
Proof.
  intros p. induction ms1 as [|m r IH]; intros ms2 K A B; cbn [app safe_all] in *.
  - unfold all_puts in B. cbn in B. rewrite app_nil_r in B. exact B.
  - apply andb_prop in A. destruct A as [A1 A2]. apply andb_true_intro. split; [exact A1|].
    apply IH; [exact A2|]. unfold all_puts in *. cbn [flat_map] in B. rewrite <- app_assoc. exact B.
Qed.

Lemma sequence_safe : forall p d o ms K chosen, op_dyn p <> None ->
  Forall (fun m => really_offered (op_sch p) m = true) ms -> (forall a, In a given_attrs -> In a K) ->
  (chosen = true -> In A_cost K) -> cost_before_solve chosen ms = true ->
  safe_all p K (M_dynamic_setup d :: M_opti_setup o :: ms) = true.
Proof.
  intros p d o ms K chosen H F I C B.
  change (M_dynamic_setup d :: M_opti_setup o :: ms) with ([M_dynamic_setup d; M_opti_setup o] ++ ms).
  apply safe_all_app; [apply setup_safe; auto|]. apply (calls_safe p ms _ chosen H F); [| |exact B].
  - intros a J. unfold ready in J. unfold all_puts. cbn [flat_map]. rewrite app_nil_r.
    apply in_or_app. apply in_app_or in J. destruct J as [J|J].
    + apply in_app_or in J. destruct J as [J|J]; [left; auto|right; apply in_or_app; left; exact J].
    + right. apply in_or_app. right. exact J.
  - intros X. apply in_or_app. left. exact (C X).
Qed.

Lemma cost_true : forall ms, cost_before_solve true ms = true.
Proof.
  induction ms as [|m r IH]; [reflexivity|]. cbn. rewrite orb_true_r, IH. reflexivity.
Qed.

Lemma well_agree : forall w i, well w -> agree (A_cost :: given_attrs) (w_attrs w i) (w_attrs w i).
Proof.
  intros w i [G [C L]] a I. split; [reflexivity|]. destruct I as [<-|I]; [exact (C i)|]. rewrite (G i a I). congruence.
Qed.

(** No error after the set-ups, whatever happened before. *)
Lemma usable : forall ps i h d o ms, op_dyn (ps i) <> None ->
  Forall (fun m => really_offered (op_sch (ps i)) m = true) ms ->
  snd (run ps (fst (run ps new_world h)) (calls_on i (M_dynamic_setup d :: M_opti_setup o :: ms))) =
  map (fun _ => Done) (M_dynamic_setup d :: M_opti_setup o :: ms).
Proof.
  intros ps i h d o ms H F. pose proof (run_well ps h _ new_well) as W. set (w := fst (run ps new_world h)) in *.
  assert (S : safe_all (ps i) (A_cost :: given_attrs) (M_dynamic_setup d :: M_opti_setup o :: ms) = true).
  { apply (sequence_safe (ps i) d o ms _ true H F); [intros a J; right; exact J|left; reflexivity|apply cost_true]. }
  destruct (exec_all_safe _ _ _ _ _ (w_lm w) S (well_agree w i W) (proj2 (proj2 W))) as [a [b [l [E1 _]]]].
  exact (proj1 (run_calls ps i _ w _ _ _ E1)).
Qed.

Lemma agree_new : forall w i, well w -> agree given_attrs new_attrs (w_attrs w i).
Proof.
  intros w i [G _] a I. rewrite (G i a I). cbn in I.
  repeat (destruct I as [<-|I]; [split; [reflexivity|cbn; congruence]|]). contradiction.
Qed.

(** The values are those of a new problem. *)
Lemma history_independent : forall ps i h d o ms, op_dyn (ps i) <> None ->
  Forall (fun m => really_offered (op_sch (ps i)) m = true) ms -> cost_before_solve false ms = true ->
  let w := fst (run ps new_world h) in
  let seq := calls_on i (M_dynamic_setup d :: M_opti_setup o :: ms) in
  (forall a v, (a <> A_cost \/ existsb sets_cost ms = true) ->
     w_attrs (fst (run ps (with_new_problem w i) seq)) i a = Some v ->
     w_attrs (fst (run ps w seq)) i a = Some v) /\
  w_lm (fst (run ps w seq)) = w_lm (fst (run ps (with_new_problem w i) seq)).
Proof.
  intros ps i h d o ms H F B w seq. pose proof (run_well ps h _ new_well) as W. fold w in W.
  assert (S : safe_all (ps i) given_attrs (M_dynamic_setup d :: M_opti_setup o :: ms) = true).
  { apply (sequence_safe (ps i) d o ms _ false H F); [auto|discriminate|exact B]. }
  destruct (exec_all_safe _ _ _ _ _ (w_lm w) S (agree_new w i W) (proj2 (proj2 W))) as [o1 [o2 [l [E1 [E2 A]]]]].
  destruct (run_calls ps i _ w _ _ _ E2) as [_ [R2 L2]].
  destruct (run_calls ps i (M_dynamic_setup d :: M_opti_setup o :: ms) (with_new_problem w i) o1 l (map (fun _ => Done) (M_dynamic_setup d :: M_opti_setup o :: ms))) as [_ [R1 L1]].
  { cbn [with_new_problem w_attrs w_lm]. rewrite Nat.eqb_refl. exact E1. }
  split.
  - intros a v C X. unfold seq in *. change (calls_on i) with (calls i) in *. rewrite R2. rewrite R1 in X.
    destruct (in_dec attr_eq_dec a (given_attrs ++ all_puts (ps i) (M_dynamic_setup d :: M_opti_setup o :: ms))) as [I|N].
    + destruct (A a I) as [E _]. rewrite <- E. exact X.
    + exfalso. rewrite (exec_all_keeps _ _ _ _ _ _ _ a E1) in X by (intros I; apply N; apply in_or_app; right; exact I).
      assert (Ng : ~ In a given_attrs) by (intros I; apply N; apply in_or_app; left; exact I).
      destruct (attr_eq_dec a A_cost) as [->|D].
      * apply N. apply in_or_app. right. destruct C as [C|C]; [congruence|].
        unfold all_puts. cbn [flat_map]. do 2 (apply in_or_app; right).
        apply existsb_exists in C. destruct C as [m [I C]]. apply in_flat_map. exists m. split; [exact I|].
        rewrite Forall_forall in F. specialize (F m I).
        destruct m; try discriminate C; cbn [code]; destruct (op_sch (ps i)); cbn in F |- *; try discriminate F; tauto.
      * destruct a; try discriminate X; try congruence; apply Ng; cbn; tauto.
  - unfold seq. change (calls_on i) with (calls i). rewrite L1, L2. reflexivity.
Qed.

(** ** Attributes that are missing stay missing *)
Fixpoint keeps_missing (Z : list attr) (cs : list access) (skip : nat) : bool :=
  match cs with
  | [] => true
  | c :: r =>
    match skip with
    | S k => keeps_missing Z r k
    | O => match c with
           | Get a _ => if inb Z a then true else keeps_missing Z r 0
           | Put a | Copy _ a => negb (inb Z a) && keeps_missing Z r 0
           | SkipIf _ n => keeps_missing Z r n && keeps_missing Z r 0
           | Fail _ => true
           | LGet _ | LPut _ => keeps_missing Z r 0
           end
    end
  end.

Definition missing (Z : list attr) (o : attrs) : Prop := forall a, In a Z -> o a = None.

Lemma missing_set : forall Z o a v, missing Z o -> inb Z a = false -> missing Z (set_attr o a v).
Proof.
  intros Z o a v M N b I. rewrite set_other; [exact (M b I)|]. intros ->. apply inb_In in I. congruence.
Qed.

Lemma exec_missing : forall Z m cs stop skip reads o l o' l' out, keeps_missing Z cs skip = true -> missing Z o ->
  exec m cs stop skip reads o l = (o', l', out) -> missing Z o'.
Proof.
  intros Z m. induction cs as [|c r IH]; intros stop skip reads o l o' l' out K M E; cbn [exec keeps_missing] in *.
  - injection E as <- _ _. exact M.
  - destruct skip as [|k]; [|exact (IH _ _ _ _ _ _ _ _ K M E)].
    assert (X : forall stop', match c with
        | Get a e => match o a with Some v => exec m r stop' 0 (v :: reads) o l | None => (o, l, Raised e) end
        | LGet a => match l a with Some v => exec m r stop' 0 (v :: reads) o l | None => (o, l, Raised AttributeError) end
        | Put a => exec m r stop' 0 reads (set_attr o a (Computed m a reads)) l
        | LPut a => exec m r stop' 0 reads o (set_lm l a (LM_computed m a reads))
        | Copy la a => match l la with Some v => exec m r stop' 0 (v :: reads) (set_attr o a v) l | None => (o, l, Raised AttributeError) end
        | SkipIf ls n => match get_all l ls with Some vs => exec m r stop' n (vs ++ reads) o l | None => exec m r stop' 0 reads o l end
        | Fail e => (o, l, Raised e) end = (o', l', out) -> missing Z o').
    { intros stop' F. destruct c.
      - destruct (inb Z a) eqn:I.
        + apply inb_In in I. rewrite (M a I) in F. injection F as <- _ _. exact M.
        + destruct (o a); [exact (IH _ _ _ _ _ _ _ _ K M F)|injection F as <- _ _; exact M].
      - destruct (l a); [exact (IH _ _ _ _ _ _ _ _ K M F)|injection F as <- _ _; exact M].
      - apply andb_prop in K. destruct K as [K1 K2]. apply negb_true_iff in K1.
        exact (IH _ _ _ _ _ _ _ _ K2 (missing_set _ _ _ _ M K1) F).
      - exact (IH _ _ _ _ _ _ _ _ K M F).
      - apply andb_prop in K. destruct K as [K1 K2]. apply negb_true_iff in K1.
        destruct (l l0); [|injection F as <- _ _; exact M].
        exact (IH _ _ _ _ _ _ _ _ K2 (missing_set _ _ _ _ M K1) F).
      - apply andb_prop in K. destruct K as [K1 K2].
        destruct (get_all l ls); [exact (IH _ _ _ _ _ _ _ _ K1 M F)|exact (IH _ _ _ _ _ _ _ _ K2 M F)].
      - injection F as <- _ _. exact M. }
    destruct stop as [[|k]|]; [injection E as <- _ _; exact M| |]; exact (X _ E).
Qed.

Definition from_dynamic_setup : list attr :=
  [A_n_q; A_n_u; A_n_lambdas; A_order; A_dyn_f_restr; A_dyn_g_restr; A_params_sym].
Definition from_opti_setup : list attr :=
  [A_n_coll; A_coll_index; A_opti; A_n_nodes; A_n_arr; A_D_mat; A_q_and_ders_opti; A_q_and_ders_node_opti;
   A_q_and_ders_names; A_opti_arrs; A_opti_points; A_precission; A_N; A_n_segments; A_point_structure;
   A_n_coll_total; A_t_knots_ext; A_h_arr; A_opti_lists].

Lemma dyn_missing : forall p m, is_dynamic_setup m = false -> keeps_missing from_dynamic_setup (code p m) 0 = true.
Proof.
  intros p m H. classes p; destruct m as [?|?| | |?|?|?|?| |[|?]]; try discriminate H; vm_compute; reflexivity.
Qed.
Lemma opti_missing : forall p m, is_opti_setup m = false -> keeps_missing from_opti_setup (code p m) 0 = true.
Proof.
  intros p m H. classes p; destruct m as [?|?| | |?|?|?|?| |[|?]]; try discriminate H; vm_compute; reflexivity.
Qed.

Lemma run_missing : forall Z f ps i h w, (forall m, f m = false -> keeps_missing Z (code (ps i) m) 0 = true) ->
  without f i h -> missing Z (w_attrs w i) -> missing Z (w_attrs (fst (run ps w h)) i).
Proof.
  intros Z f ps i. induction h as [|c r IH]; intros w Hf H M; [exact M|].
  inversion H as [|? ? Hc Hr]; subst. rewrite run_cons. cbn [fst]. apply (IH _ Hf Hr).
  destruct c as [j m st]. cbn [c_problem c_method] in Hc. unfold run_call. cbn [c_problem c_method c_stop].
  destruct (exec m (code (ps j) m) st 0 [] (w_attrs w j) (w_lm w)) as [[o l] out] eqn:E. cbn [fst set_problem w_attrs].
  destruct (Nat.eqb_spec j i) as [->|N]; [|exact M].
  exact (exec_missing _ _ _ _ _ _ _ _ _ _ _ (Hf m (Hc eq_refl)) M E).
Qed.

(** the first missing attribute decides the exception *)
Fixpoint first_missing (K Z : list attr) (cs : list access) : option exn :=
  match cs with
  | Get a e :: r => if inb Z a then Some e else if inb K a then first_missing K Z r else None
  | Put a :: r => if inb Z a then None else first_missing K Z r
  | _ => None
  end.

Lemma exec_first_missing : forall m cs K Z e reads o l, first_missing K Z cs = Some e ->
  (forall a, In a K -> o a <> None) -> missing Z o ->
  exists o', exec m cs None 0 reads o l = (o', l, Raised e).
Proof.
  intros m. induction cs as [|c r IH]; intros K Z e reads o l F HK M; [discriminate|].
  destruct c; cbn [first_missing exec option_map] in *; try discriminate.
  - destruct (inb Z a) eqn:I.
    + injection F as ->. apply inb_In in I. rewrite (M a I). eauto.
    + destruct (inb K a) eqn:J; [|discriminate]. apply inb_In in J. pose proof (HK a J) as N.
      destruct (o a) as [v|]; [|congruence]. exact (IH K Z e _ o l F HK M).
  - destruct (inb Z a) eqn:I; [discriminate|]. apply (IH K Z e _ _ l F).
    + intros b J. destruct (attr_eq_dec a b) as [->|N]; [rewrite set_same; congruence|rewrite set_other; auto].
    + apply missing_set; auto.
Qed.

Lemma run_one : forall ps w i m, snd (run_call ps w (Build_call i m None)) =
  snd (exec m (code (ps i) m) None 0 [] (w_attrs w i) (w_lm w)).
Proof.
  intros. unfold run_call. cbn [c_problem c_method c_stop].
  destruct (exec m (code (ps i) m) None 0 [] (w_attrs w i) (w_lm w)) as [[o l] out]. reflexivity.
Qed.

Lemma skipped : forall Z f e ps i h m, (forall m, f m = false -> keeps_missing Z (code (ps i) m) 0 = true) ->
  missing Z new_attrs -> without f i h -> first_missing given_attrs Z (code (ps i) m) = Some e ->
  snd (run_call ps (fst (run ps new_world h)) (Build_call i m None)) = Raised e.
Proof.
  intros Z f e ps i h m Hf HZ H F. rewrite run_one.
  pose proof (run_well ps h _ new_well) as W. pose proof (run_missing Z f ps i h new_world Hf H HZ) as M.
  assert (G : forall a, In a given_attrs -> w_attrs (fst (run ps new_world h)) i a <> None).
  { intros a I. rewrite (proj1 W i a I). congruence. }
  destruct (exec_first_missing m _ _ _ _ [] _ (w_lm (fst (run ps new_world h))) F G M) as [o' E].
  rewrite E. reflexivity.
Qed.

Lemma missing_dyn_new : missing from_dynamic_setup new_attrs.
Proof. intros a I. cbn in I. repeat (destruct I as [<-|I]; [reflexivity|]). contradiction. Qed.
Lemma missing_opti_new : missing from_opti_setup new_attrs.
Proof. intros a I. cbn in I. repeat (destruct I as [<-|I]; [reflexivity|]). contradiction. Qed.

Lemma no_opti_setup : forall ps i h m, without is_opti_setup i h -> needs_opti_setup (op_sch (ps i)) m = true ->
  snd (run_call ps (fst (run ps new_world h)) (Build_call i m None)) = Raised RuntimeError.
Proof.
  intros ps i h m H N. apply (skipped from_opti_setup is_opti_setup); [apply opti_missing|exact missing_opti_new|exact H|].
  destruct (ps i) as [[[]|] [] [] ? ?]; destruct m as [?|?| | |?|?|?|?| |[|?]]; cbn in N; try discriminate N; vm_compute; reflexivity.
Qed.

Lemma no_dynamic_setup : forall ps i h o, without is_dynamic_setup i h -> op_sch (ps i) <> Pseudospectral ->
  snd (run_call ps (fst (run ps new_world h)) (Build_call i (M_opti_setup o) None)) = Raised RuntimeError.
Proof.
  intros ps i h o H N. apply (skipped from_dynamic_setup is_dynamic_setup); [apply dyn_missing|exact missing_dyn_new|exact H|].
  destruct (ps i) as [[[]|] [] [] ? ?]; cbn in N; try congruence; vm_compute; reflexivity.
Qed.

Lemma no_dynamic_setup_ps : forall ps i h o, without is_dynamic_setup i h -> op_sch (ps i) = Pseudospectral ->
  snd (run_call ps (fst (run ps new_world h)) (Build_call i (M_opti_setup o) None)) = Raised AttributeError.
Proof.
  intros ps i h o H N. apply (skipped from_dynamic_setup is_dynamic_setup); [apply dyn_missing|exact missing_dyn_new|exact H|].
  destruct (ps i) as [[[]|] [] [] ? ?]; cbn in N; try congruence; vm_compute; reflexivity.
Qed.

Lemma cost_without_setup : forall ps i h m, without is_opti_setup i h -> sets_cost m = true -> offered (op_sch (ps i)) m = true ->
  needs_opti_setup (op_sch (ps i)) m = false ->
  snd (run_call ps (fst (run ps new_world h)) (Build_call i m None)) = Raised AttributeError.
Proof.
  intros ps i h m H S O N. apply (skipped from_opti_setup is_opti_setup); [apply opti_missing|exact missing_opti_new|exact H|].
  destruct (ps i) as [[[]|] [] [] ? ?]; destruct m; cbn in N, O, S; try discriminate; vm_compute; reflexivity.
Qed.

(** a call that fails before it writes changes nothing *)
Fixpoint only_gets (n : nat) (cs : list access) : bool :=
  match n, cs with
  | O, _ => true
  | S k, Get _ _ :: r => only_gets k r
  | _, _ => false
  end.
Lemma exec_gets : forall m n cs reads o l a e, only_gets n cs = true -> nth_error cs n = Some (Get a e) -> o a = None ->
  exists e', exec m cs None 0 reads o l = (o, l, Raised e').
Proof.
  intros m. induction n as [|n IH]; intros [|c r] reads o l a e G N M; try discriminate.
  - injection N as ->. cbn. rewrite M. eauto.
  - cbn in G, N. destruct c; try discriminate. cbn. destruct (o a0) as [v|]; [|eauto].
    exact (IH r _ o l a e G N M).
Qed.

Lemma rejected_changes_nothing : forall ps i h o, without is_dynamic_setup i h -> op_sch (ps i) <> Equispaced ->
  let w := fst (run ps new_world h) in
  let w' := fst (run_call ps w (Build_call i (M_opti_setup o) None)) in
  (forall j a, w_attrs w' j a = w_attrs w j a) /\ (forall a, w_lm w' a = w_lm w a).
Proof.
  intros ps i h o H N w w'.
  assert (M : missing from_dynamic_setup (w_attrs w i)).
  { apply (run_missing _ is_dynamic_setup); [apply dyn_missing|exact H|exact missing_dyn_new]. }
  assert (E : exists e', exec (M_opti_setup o) (code (ps i) (M_opti_setup o)) None 0 [] (w_attrs w i) (w_lm w) = (w_attrs w i, w_lm w, Raised e')).
  { destruct (ps i) as [dd [] ii mm ss]; cbn [op_sch] in N; try congruence.
    - apply (exec_gets _ 3 _ [] _ _ A_order AttributeError); [reflexivity|reflexivity|apply M; cbn; tauto].
    - apply (exec_gets _ 0 _ [] _ _ A_order RuntimeError); [reflexivity|reflexivity|apply M; cbn; tauto].
    - apply (exec_gets _ 0 _ [] _ _ A_order RuntimeError); [reflexivity|reflexivity|apply M; cbn; tauto].
    - apply (exec_gets _ 0 _ [] _ _ A_n_q RuntimeError); [reflexivity|reflexivity|apply M; cbn; tauto]. }
  destruct E as [e' E]. unfold w', run_call. cbn [c_problem c_method c_stop]. rewrite E. cbn [fst set_problem w_attrs w_lm].
  split; [|reflexivity]. intros j a. destruct (Nat.eqb_spec i j) as [->|]; reflexivity.
Qed.

Lemma equispaced_half_setup : forall ps i o d, op_sch (ps i) = Equispaced -> op_dyn (ps i) <> None ->
  snd (run ps new_world (calls_on i [M_opti_setup o; M_dynamic_setup d; M_apply_scheme])) =
  [Raised RuntimeError; Done; Raised AttributeError].
Proof.
  intros ps i o d H D. destruct (exec_all (ps i) [M_opti_setup o; M_dynamic_setup d; M_apply_scheme] (w_attrs new_world i) (w_lm new_world))
    as [[a l] outs] eqn:E. change (calls_on i) with (calls i). rewrite (proj1 (run_calls ps i _ new_world _ _ _ E)).
  assert (X : snd (exec_all (ps i) [M_opti_setup o; M_dynamic_setup d; M_apply_scheme] (w_attrs new_world i) (w_lm new_world))
     = [Raised RuntimeError; Done; Raised AttributeError]).
  { destruct (ps i) as [[[]|] [] [] ? ?]; cbn in H, D; try congruence; vm_compute; reflexivity. }
  rewrite E in X. exact X.
Qed.

Lemma multi_trapz : forall ps i h n, op_sch (ps i) = multi_pseudospectral ->
  snd (run_call ps (fst (run ps new_world h)) (Build_call i (M_trapz_cost n) None)) = Raised AttributeError.
Proof.
  intros ps i h n H. rewrite run_one.
  assert (M : missing [A_n_coll] (w_attrs (fst (run ps new_world h)) i)).
  { apply (run_missing _ (fun _ => false)).
    - intros m _. destruct (ps i) as [[[]|] [] [] ? ?]; cbn in H; try congruence;
        destruct m as [?|?| | |?|?|?|?| |[|?]]; vm_compute; reflexivity.
    - unfold without. rewrite Forall_forall. auto.
    - intros a [<-|[]]. reflexivity. }
  specialize (M A_n_coll (or_introl eq_refl)).
  destruct (ps i) as [dd [] ii mm ss]; cbn [op_sch] in H; try congruence. cbn [code op_sch trapz_cost_code app rd exec option_map].
  set (o := w_attrs (fst (run ps new_world h)) i) in *.
  destruct (o A_t_end); [|reflexivity]. destruct (o A_t_start); [|reflexivity].
  destruct (o A_n_arr); [|reflexivity]. rewrite M. reflexivity.
Qed.

Lemma no_dynamics_class : forall ps i h d, op_dyn (ps i) = None ->
  snd (run_call ps (fst (run ps new_world h)) (Build_call i (M_dynamic_setup d) None)) = Raised AttributeError.
Proof.
  intros ps i h d H. rewrite run_one. cbn [code]. rewrite H. reflexivity.
Qed.

Lemma chrono_zero : forall ps i h, 
  snd (run_call ps (fst (run ps new_world h)) (Build_call i (M_chrono_solve 0) None)) = Raised ZeroDivisionError.
Proof. intros. rewrite run_one. reflexivity. Qed.

(** the cost of an earlier set-up *)
Lemma stale_cost : forall ps i d o d' o', op_dyn (ps i) <> None ->
  let w := fst (run ps new_world (calls_on i [M_dynamic_setup d; M_opti_setup o; M_u_sq_cost; M_dynamic_setup d'; M_opti_setup o'])) in
  w_attrs (with_new_problem w i) i A_cost = Some PyNone /\
  (exists reads, w_attrs w i A_cost = Some (Computed M_u_sq_cost A_cost reads)) /\
  snd (run_call ps w (Build_call i M_simple_solve None)) = Done.
Proof.
  intros ps i d o d' o' D w. split; [cbn; rewrite Nat.eqb_refl; reflexivity|].
  set (ms := [M_dynamic_setup d; M_opti_setup o; M_u_sq_cost; M_dynamic_setup d'; M_opti_setup o']) in *.
  destruct (exec_all (ps i) ms (w_attrs new_world i) (w_lm new_world)) as [[a l] outs] eqn:E.
  change (calls_on i) with (calls i) in w.
  destruct (run_calls ps i _ new_world _ _ _ E) as [_ [A L]]. fold w in A, L. split.
  - rewrite A. assert (X : exists reads, fst (fst (exec_all (ps i) ms (w_attrs new_world i) (w_lm new_world))) A_cost = Some (Computed M_u_sq_cost A_cost reads)).
    { unfold ms. destruct (ps i) as [[[]|] [] [] ? ?]; cbn in D; try congruence; eexists; vm_compute; reflexivity. }
    rewrite E in X. exact X.
  - rewrite run_one, A, L.
    assert (X : snd (exec_all (ps i) (ms ++ [M_simple_solve]) (w_attrs new_world i) (w_lm new_world)) = map (fun _ => Done) (ms ++ [M_simple_solve])).
    { unfold ms. destruct (ps i) as [[[]|] [] [] ? ?]; cbn in D; try congruence; vm_compute; reflexivity. }
    assert (Y : forall p ms o l m, snd (exec_all p (ms ++ [m]) o l) = snd (exec_all p ms o l) ++
       [snd (exec m (code p m) None 0 [] (fst (fst (exec_all p ms o l))) (snd (fst (exec_all p ms o l))))]).
    { clear. intros p. induction ms as [|m r IH]; intros o l x; cbn [app exec_all].
      - cbn. destruct (exec x (code p x) None 0 [] o l) as [[? ?] ?]. reflexivity.
      - destruct (exec m (code p m) None 0 [] o l) as [[o1 l1] out].
        specialize (IH o1 l1 x). destruct (exec_all p (r ++ [x]) o1 l1) as [[? ?] ?].
        destruct (exec_all p r o1 l1) as [[? ?] ?]. cbn in *. rewrite IH. reflexivity. }
    rewrite Y, E in X. cbn [fst snd] in X. rewrite map_app in X. apply app_inj_tail in X. exact (proj2 X).
Qed.

(** ** The shared dynamics object *)
Definition cached (l : lm_attrs) : Prop := lm_has [L_dynam_f_x; L_dynam_g_q; L_arguments] l.

Lemma other_problem : forall ps w c i a, c_problem c <> i -> w_attrs (fst (run_call ps w c)) i a = w_attrs w i a.
Proof.
  intros ps w [j m st] i a N. unfold run_call. cbn [c_problem c_method c_stop] in *.
  destruct (exec m (code (ps j) m) st 0 [] (w_attrs w j) (w_lm w)) as [[o l] out]. cbn.
  destruct (Nat.eqb_spec j i); [contradiction|reflexivity].
Qed.

Lemma other_problems : forall ps h w i a, Forall (fun c => c_problem c <> i) h ->
  w_attrs (fst (run ps w h)) i a = w_attrs w i a.
Proof.
  intros ps. induction h as [|c r IH]; intros w i a F; [reflexivity|]. inversion F; subst.
  rewrite run_cons. cbn [fst]. rewrite IH by assumption. apply other_problem. assumption.
Qed.

Lemma function_own : forall ps i w d, op_dyn (ps i) = Some Function_Dynamics -> well w ->
  let w' := fst (run_call ps w (Build_call i (M_dynamic_setup d) None)) in
  w_attrs w' i A_dyn_f_restr = Some (Computed (M_dynamic_setup d) A_dyn_f_restr [Given A_LM; Given A_params]) /\
  snd (run_call ps w (Build_call i (M_dynamic_setup d) None)) = Done.
Proof.
  intros ps i w d H [G _]. unfold run_call. cbn [c_problem c_method c_stop code]. rewrite H.
  cbn [dynamic_setup_code rd exec option_map]. rewrite (G i A_params), (G i A_LM) by (cbn; tauto).
  cbn [fst snd set_problem w_attrs]. rewrite Nat.eqb_refl. split; reflexivity.
Qed.



Definition three : list lm_attr := [L_dynam_f_x; L_dynam_g_q; L_arguments].
Lemma get_all_some : forall l ls, lm_has ls l -> exists vs, get_all l ls = Some vs.
Proof.
  intros l. induction ls as [|a r IH]; intros C; [cbn; eauto|]. cbn.
  destruct (l a) eqn:E; [|exfalso; exact (C a (or_introl eq_refl) E)].
  destruct IH as [vs V]; [intros b I; apply C; right; exact I|]. rewrite V. eauto.
Qed.

(** no write to the dynamics object once the three results are there *)
Fixpoint no_lput (cs : list access) (skip : nat) : bool :=
  match cs with
  | [] => true
  | c :: r => match skip with
    | S k => no_lput r k
    | O => match c with
      | LPut _ => false
      | SkipIf ls n => forallb (linb three) ls && no_lput r n
      | _ => no_lput r 0
      end
    end
  end.
Lemma no_lput_exec : forall m cs stop skip reads o l o' l' out, cached l -> no_lput cs skip = true ->
  exec m cs stop skip reads o l = (o', l', out) -> l' = l.
Proof.
  intros m. induction cs as [|c r IH]; intros stop skip reads o l o' l' out C N E; [cbn in E; congruence|].
  cbn [exec] in E. cbn [no_lput] in N. destruct skip as [|k]; [|eauto].
  assert (G : forall ls, forallb (linb three) ls = true -> exists vs, get_all l ls = Some vs).
  { intros ls F. apply get_all_some. intros a I. rewrite forallb_forall in F. apply C. exact (proj1 (linb_In _ _) (F a I)). }
  destruct stop as [[|k]|]; [congruence| |]; destruct c; try discriminate N;
    try (apply andb_prop in N; destruct N as [F N]; destruct (G _ F) as [vs V]; rewrite V in E; eapply IH; [exact C|exact N|exact E]);
    try (match type of E with context [match ?x with Some _ => _ | None => _ end] => destruct x; [|congruence] end);
    try (eapply IH; [exact C|exact N|exact E]); congruence.
Qed.
Lemma cached_exec : forall p m stop o l o' l' out, cached l -> exec m (code p m) stop 0 [] o l = (o', l', out) -> l' = l.
Proof.
  intros p m stop o l o' l' out C E. eapply no_lput_exec; [exact C| |exact E].
  classes p; destruct m as [?|?| | |?|?|?|?| |[|?]]; vm_compute; reflexivity.
Qed.
Lemma cached_run : forall ps h w, cached (w_lm w) -> w_lm (fst (run ps w h)) = w_lm w.
Proof.
  intros ps. induction h as [|c r IH]; intros w C; [reflexivity|]. rewrite run_cons. cbn [fst].
  assert (X : w_lm (fst (run_call ps w c)) = w_lm w).
  { unfold run_call. destruct (exec (c_method c) (code (ps (c_problem c)) (c_method c)) (c_stop c) 0 [] (w_attrs w (c_problem c)) (w_lm w))
      as [[o l] out] eqn:E. cbn. exact (cached_exec _ _ _ _ _ _ _ _ C E). }
  rewrite IH; [exact X|]. rewrite X. exact C.
Qed.

(** what a completed dynamic_setup leaves in the problem *)
Definition computes_dynamics (ps : nat -> opti_problem) (i : nat) (d : nat) : call := Build_call i (M_dynamic_setup d) None.

Ltac step_in := cbn [rd exec option_map].
Lemma symbolic_setup : forall ps i w d, symbolic (op_dyn (ps i)) -> well w ->
  let w' := fst (run_call ps w (computes_dynamics ps i d)) in
  snd (run_call ps w (computes_dynamics ps i d)) = Done /\
  cached (w_lm w') /\
  w_attrs w' i A_dyn_f_restr = w_lm w' L_dynam_f_x /\
  w_attrs w' i A_dyn_g_restr = w_lm w' L_dynam_g_q /\
  (get_all (w_lm w) three = None ->
     exists r1 r2, w_lm w' L_dynam_f_x = Some (LM_computed (M_dynamic_setup d) L_dynam_f_x r1) /\
     w_lm w' L_dynam_g_q = Some (LM_computed (M_dynamic_setup d) L_dynam_g_q r2)).
Proof.
  intros ps i w d S [G [_ L]]. unfold computes_dynamics, run_call. cbn [c_problem c_method c_stop code].
  assert (Q : exists q, w_lm w L_q = Some q). { destruct (w_lm w L_q) eqn:E; [eauto|]. exfalso. exact (L L_q (or_introl eq_refl) E). }
  assert (H : exists q, w_lm w L_rhs = Some q). { destruct (w_lm w L_rhs) eqn:E; [eauto|]. exfalso. exact (L L_rhs (or_intror (or_introl eq_refl)) E). }
  destruct Q as [vq Q], H as [vr H].
  assert (GL : w_attrs w i A_LM = Some (Given A_LM)) by (apply G; cbn; tauto).
  assert (GV : w_attrs w i A_verbose = Some (Given A_verbose)) by (apply G; cbn; tauto).
  assert (GS : w_attrs w i A_silent = Some (Given A_silent)) by (apply G; cbn; tauto).
  destruct S as [S|S]; rewrite S; cbn [dynamic_setup_code rd]; fold three.
  - cbn [rd exec option_map]. rewrite GL, Q. destruct (get_all (w_lm w) three) as [vs|] eqn:V.
    + pose proof (get_all_has _ _ _ V) as C. 
      destruct (w_lm w L_arguments) eqn:VA; [|exfalso; refine (C _ _ VA); cbn; tauto].
      destruct (w_lm w L_dynam_f_x) eqn:VF; [|exfalso; refine (C _ _ VF); cbn; tauto].
      destruct (w_lm w L_dynam_g_q) eqn:VG; [|exfalso; refine (C _ _ VG); cbn; tauto].
      cbn [fst snd set_problem w_attrs w_lm]. rewrite Nat.eqb_refl, VF, VG. unfold set_attr. cbn [attr_beq].
      repeat split; try reflexivity; [exact C|discriminate].
    + rewrite !(set_other _ A_n_q _ A_verbose), !(set_other _ A_n_q _ A_silent), GV, GS, H by discriminate. unfold set_lm. cbn [lm_attr_beq fst snd set_problem w_attrs w_lm].
      rewrite Nat.eqb_refl. unfold set_attr. cbn [attr_beq].
      split; [reflexivity|]. split; [|split; [reflexivity|split; [reflexivity|eauto]]].
      intros a [<-|[<-|[<-|[]]]]; cbn; discriminate.
  - cbn [rd exec option_map]. rewrite GL, Q, !(set_other _ A_n_q _ A_silent), GS by discriminate. destruct (get_all (w_lm w) three) as [vs|] eqn:V.
    + pose proof (get_all_has _ _ _ V) as C. 
      destruct (w_lm w L_arguments) eqn:VA; [|exfalso; refine (C _ _ VA); cbn; tauto].
      destruct (w_lm w L_dynam_f_x) eqn:VF; [|exfalso; refine (C _ _ VF); cbn; tauto].
      destruct (w_lm w L_dynam_g_q) eqn:VG; [|exfalso; refine (C _ _ VG); cbn; tauto].
      cbn [fst snd set_problem w_attrs w_lm]. rewrite Nat.eqb_refl, VF, VG. unfold set_attr. cbn [attr_beq].
      repeat split; try reflexivity; [exact C|discriminate].
    + rewrite !(set_other _ A_n_q _ A_verbose), GV, H by discriminate. unfold set_lm. cbn [lm_attr_beq fst snd set_problem w_attrs w_lm].
      rewrite Nat.eqb_refl. unfold set_attr. cbn [attr_beq].
      split; [reflexivity|]. split; [|split; [reflexivity|split; [reflexivity|eauto]]].
      intros a [<-|[<-|[<-|[]]]]; cbn; discriminate.
Qed.

Lemma symbolic_first : forall ps i h d, symbolic (op_dyn (ps i)) ->
  Forall (fun c => is_dynamic_setup (c_method c) = false \/ op_dyn (ps (c_problem c)) = Some Function_Dynamics) h ->
  let w := fst (run ps new_world (h ++ calls_on i [M_dynamic_setup d])) in
  (exists r, w_attrs w i A_dyn_f_restr = Some (LM_computed (M_dynamic_setup d) L_dynam_f_x r)) /\
  (exists r, w_attrs w i A_dyn_g_restr = Some (LM_computed (M_dynamic_setup d) L_dynam_g_q r)).
Proof.
  intros ps i h d S F w. unfold w. rewrite run_app.
  assert (E : w_lm (fst (run ps new_world h)) = new_lm).
  { assert (G : forall h w, Forall (fun c => is_dynamic_setup (c_method c) = false \/ op_dyn (ps (c_problem c)) = Some Function_Dynamics) h ->
      w_lm (fst (run ps w h)) = w_lm w).
    { clear. induction h as [|c r IH]; intros w F; [reflexivity|]. inversion F as [|? ? Hc Fr]; subst.
      rewrite run_cons. cbn [fst]. rewrite (IH _ Fr). unfold run_call.
      destruct (exec (c_method c) (code (ps (c_problem c)) (c_method c)) (c_stop c) 0 [] (w_attrs w (c_problem c)) (w_lm w)) as [[o l] out] eqn:E.
      cbn. assert (Z : lputs (code (ps (c_problem c)) (c_method c)) = []).
      { destruct c as [j m st]. cbn in *. destruct Hc as [Hc|Hc].
        - destruct (ps j) as [[[]|] [] [] ? ?]; destruct m as [?|?| | |?|?|?|?| |[|?]]; try discriminate Hc; reflexivity.
        - destruct (ps j) as [[[]|] [] [] ? ?]; cbn in Hc; try discriminate Hc; destruct m as [?|?| | |?|?|?|?| |[|?]]; reflexivity. }
      clear - E Z. revert Z E. generalize (code (ps (c_problem c)) (c_method c)) as cs, (c_stop c) as st, 0%nat as sk, (@nil val) as rs, (w_attrs w (c_problem c)) as o0, (w_lm w) as l0.
      induction cs as [|x cs IH]; intros st sk rs o0 l0 Z E; cbn [exec] in E; [congruence|].
      assert (Zr : lputs cs = []) by (destruct x; cbn in Z; try exact Z; discriminate).
      destruct sk as [|k]; [|exact (IH _ _ _ _ _ Zr E)].
      destruct st as [[|k]|]; [congruence| |]; destruct x; try discriminate Z;
        repeat match type of E with context [match ?y with Some _ => _ | None => _ end] => destruct y end;
        try (injection E as _ <- _; reflexivity); try exact (IH _ _ _ _ _ Zr E). }
    rewrite G by exact F. reflexivity. }
  pose proof (run_well ps h _ new_well) as W. 
  destruct (symbolic_setup ps i _ d S W) as [_ [_ [A [B C]]]].
  cbn [calls_on map]. rewrite run_cons. cbn [run fst]. unfold computes_dynamics in *.
  destruct C as [r1 [r2 [C1 C2]]]; [rewrite E; reflexivity|].
  rewrite A, B, C1, C2. eauto.
Qed.

Lemma symbolic_stale : forall ps i j h1 h2 d1 d2, symbolic (op_dyn (ps i)) -> symbolic (op_dyn (ps j)) ->
  let w1 := fst (run ps new_world (h1 ++ calls_on j [M_dynamic_setup d1])) in
  let w2 := fst (run ps w1 (h2 ++ calls_on i [M_dynamic_setup d2])) in
  w_attrs w2 i A_dyn_f_restr = w_attrs w1 j A_dyn_f_restr /\
  w_attrs w2 i A_dyn_g_restr = w_attrs w1 j A_dyn_g_restr.
Proof.
  intros ps i j h1 h2 d1 d2 Si Sj w1 w2.
  assert (W1 : well w1) by (apply run_well; exact new_well).
  unfold w2. rewrite run_app. set (w := fst (run ps w1 h2)).
  assert (Ww : well w) by (apply run_well; exact W1).
  assert (X1 : cached (w_lm w1) /\ w_attrs w1 j A_dyn_f_restr = w_lm w1 L_dynam_f_x /\ w_attrs w1 j A_dyn_g_restr = w_lm w1 L_dynam_g_q).
  { unfold w1. rewrite run_app. cbn [calls_on map]. rewrite run_cons. cbn [run fst].
    destruct (symbolic_setup ps j _ d1 Sj (run_well ps h1 _ new_well)) as [_ [C [A [B _]]]]. auto. }
  destruct X1 as [C1 [A1 B1]].
  destruct (symbolic_setup ps i w d2 Si Ww) as [_ [_ [A [B _]]]].
  cbn [calls_on map]. rewrite run_cons. cbn [run fst]. unfold computes_dynamics in *.
  rewrite A, B, A1, B1.
  assert (L : w_lm (fst (run_call ps w (Build_call i (M_dynamic_setup d2) None))) = w_lm w1).
  { pose proof (cached_run ps (h2 ++ calls_on i [M_dynamic_setup d2]) w1 C1) as K.
    rewrite run_app in K. fold w in K. cbn [calls_on map] in K. rewrite run_cons in K. exact K. }
  rewrite L. auto.
Qed.

Lemma function_always : forall ps i h d, op_dyn (ps i) = Some Function_Dynamics ->
  let w := fst (run ps new_world (h ++ calls_on i [M_dynamic_setup d])) in
  w_attrs w i A_dyn_f_restr = Some (Computed (M_dynamic_setup d) A_dyn_f_restr [Given A_LM; Given A_params]) /\
  w_attrs w i A_dyn_g_restr = Some (Computed (M_dynamic_setup d) A_dyn_g_restr [Given A_LM; Given A_params]).
Proof.
  intros ps i h d H w. unfold w. rewrite run_app. cbn [calls_on map]. rewrite run_cons. cbn [run fst].
  destruct (run_well ps h _ new_well) as [G _]. unfold run_call. cbn [c_problem c_method c_stop code]. rewrite H.
  cbn [dynamic_setup_code rd exec option_map]. rewrite (G i A_params), (G i A_LM) by (cbn; tauto).
  cbn [fst snd set_problem w_attrs]. rewrite Nat.eqb_refl. split; reflexivity.
Qed.
