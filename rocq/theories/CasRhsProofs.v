From Coq Require Import String Ascii Permutation.
From Verif Require Import Prelude PwInterpModel SymModel SymSpec SymProofs FuncDynModel FuncDynSpec CasModel CasSpec CasProofs.
Open Scope R_scope.
Open Scope list_scope.

Lemma value_rename val e : value val e = eval val (rename called e).
Proof. unfold value. rewrite eval_rename. reflexivity. Qed.
Lemma values_rename val l : map (eval val) (map (rename called) l) = map (value val) l.
Proof. rewrite map_map. apply map_ext. intros; symmetry; apply value_rename. Qed.
Lemma map_static (val : atom -> R) l : map val (map Static l) = map (fun s => val (Static s)) l.
Proof. apply map_map. Qed.

Section Orders.
Variable dyn_order : expr -> list atom.
Variable sym_order : expr -> list string.
Hypothesis IT : iterates dyn_order sym_order.
Notation normal := (normal dyn_order sym_order).
Notation arguments_of := (arguments_of dyn_order sym_order).
Notation to_casadi := (rhs_to_casadi_function dyn_order sym_order).

(** The expressions that are evaluated. *)
Definition rhs_funcs_of (r : arguments) (RHS : list expr) (mode : string) : Res (list expr) :=
  if (mode =? "x")%string then
    if (length (r_q r) =? length RHS)%nat then Ok (map Var (r_v r) ++ RHS)
    else if (length RHS =? length (r_q r ++ r_v r))%nat then Ok RHS else Err ValueError
  else if (mode =? "q")%string then
    if (length (r_q r) =? length RHS)%nat then Ok RHS
    else if (length RHS =? length (r_q r ++ r_v r))%nat then Ok (skipn (length RHS / 2) RHS) else Err ValueError
  else Err ValueError.
Definition groups_of (r : arguments) (mode : string) : list (sym * list atom) :=
  (if (mode =? "x")%string then [(S_x, r_q r ++ r_v r)] else [(S_q, r_q r); (S_v, r_v r)]) ++
  [(S_u, r_u r); (S_p, map Static (r_params r))].
Definition names_of (mode : string) : list string := (if (mode =? "x")%string then ["x"%string] else ["q"%string; "v"%string]) ++ ["u"%string; "params"%string].
Lemma groups_vars r mode : g_vars (groups_of r mode) = (r_q r ++ r_v r) ++ r_u r ++ map Static (r_params r).
Proof. unfold groups_of, g_vars. destruct (mode =? "x")%string; cbn [map concat app snd]; rewrite ?app_nil_r, ?app_assoc; auto. Qed.
Lemma groups_nodup r mode : NoDup (map fst (groups_of r mode)).
Proof. unfold groups_of. destruct (mode =? "x")%string; cbn; repeat constructor; cbn; intuition discriminate. Qed.
Lemma to_casadi_eq RHS Q U mode : to_casadi RHS Q U mode =
  (do RHS' <- mapm normal RHS; do r <- arguments_of RHS Q U false false;
   do funcs <- rhs_funcs_of r RHS' mode;
   do outs <- mapm (fun f => sympy2casadi f (g_vars (groups_of r mode)) (g_cas (groups_of r mode))) funcs;
   Ok {| cf_in := map2 (fun n g => (n, fst g, length (snd g))) (names_of mode) (groups_of r mode); cf_out := outs |}).
Proof.
  unfold rhs_to_casadi_function. destruct (mapm normal RHS) as [RHS'|] eqn:E; cbn [rbind]; auto.
  rewrite (arguments_again _ _ IT _ _ Q U false false E). destruct (arguments_of RHS Q U false false) as [r|]; cbn [rbind]; auto.
  change (if (mode =? "x")%string then _ else _) with (rhs_funcs_of r RHS' mode) at 1.
  destruct (rhs_funcs_of r RHS' mode) as [funcs|]; cbn [rbind]; auto.
  rewrite groups_vars. unfold groups_of, names_of, g_cas. destruct (mode =? "x")%string; cbn [map concat app fst snd map2]; rewrite ?app_nil_r, <- ?app_assoc; reflexivity.
Qed.
Lemma mode_x : (("x" =? "x")%string = true). Proof. reflexivity. Qed.
Lemma mode_qx : (("q" =? "x")%string = false). Proof. reflexivity. Qed.

Theorem to_casadi_value RHS Q U mode r f : arguments_of RHS Q U false false = Ok r -> to_casadi RHS Q U mode = Ok f ->
  exists funcs, rhs_funcs_of r (map (rename called) RHS) mode = Ok funcs /\
  forall val, cas_call f (map (fun g => map val (snd g)) (groups_of r mode)) = Ok (map (eval val) funcs).
Proof.
  intros Hr H. rewrite to_casadi_eq in H. destruct (mapm normal RHS) as [RHS'|] eqn:E; cbn [rbind] in H; [|discriminate].
  rewrite Hr in H. cbn [rbind] in H. destruct (normals _ _ IT _ _ E) as [-> _].
  destruct (rhs_funcs_of r (map (rename called) RHS) mode) as [funcs|]; cbn [rbind] in H; [|discriminate].
  exists funcs; split; auto. intros val. destruct (mapm _ funcs) as [outs|] eqn:Eo; cbn [rbind] in H; [|discriminate]. injection H as <-.
  apply function_value; auto; [apply groups_nodup|]. unfold groups_of, names_of. destruct (mode =? "x")%string; reflexivity.
Qed.
Lemma var_values val l : map (eval val) (map Var l) = map val l.
Proof. rewrite map_map. apply map_ext; auto. Qed.

(** Mode x. *)
Theorem to_casadi_x RHS Q U r f : arguments_of RHS Q U false false = Ok r -> to_casadi RHS Q U "x" = Ok f ->
  forall val, cas_call f [map val (r_q r ++ r_v r); map val (r_u r); map (fun s => val (Static s)) (r_params r)] =
  Ok ((if (length (r_q r) =? length RHS)%nat then map val (r_v r) else []) ++ map (value val) RHS).
Proof.
  intros Hr H val. destruct (to_casadi_value _ _ _ _ _ _ Hr H) as (funcs & E & V). specialize (V val). unfold groups_of in V.
  rewrite mode_x in V. cbn [map app snd] in V. rewrite map_static in V. rewrite V. f_equal. unfold rhs_funcs_of in E. rewrite mode_x, map_length in E.
  destruct (length (r_q r) =? length RHS)%nat.
  - injection E as <-. rewrite map_app, var_values, values_rename. reflexivity.
  - destruct (length RHS =? _)%nat; [|discriminate]. injection E as <-. rewrite values_rename. reflexivity.
Qed.
Theorem to_casadi_q RHS Q U r f : arguments_of RHS Q U false false = Ok r -> to_casadi RHS Q U "q" = Ok f ->
  forall val, cas_call f [map val (r_q r); map val (r_v r); map val (r_u r); map (fun s => val (Static s)) (r_params r)] =
  Ok (map (value val) (if (length (r_q r) =? length RHS)%nat then RHS else skipn (length (r_q r)) RHS)).
Proof.
  intros Hr H val. destruct (to_casadi_value _ _ _ _ _ _ Hr H) as (funcs & E & V). specialize (V val). unfold groups_of in V.
  rewrite mode_qx in V. cbn [map app snd] in V. rewrite map_static in V. rewrite V. f_equal. unfold rhs_funcs_of in E. rewrite mode_qx in E. cbn [String.eqb Ascii.eqb Bool.eqb] in E. rewrite map_length in E.
  destruct (length (r_q r) =? length RHS)%nat.
  - injection E as <-. apply values_rename.
  - destruct (length RHS =? length (r_q r ++ r_v r))%nat eqn:EL; [|discriminate]. injection E as <-. apply Nat.eqb_eq in EL.
    rewrite app_length, (proj1 (arguments_lengths _ _ _ _ _ _ _ _ Hr)) in EL.
    change (fst (Nat.divmod (length RHS) 1 0 1)) with (length RHS / 2)%nat. replace (length RHS / 2)%nat with (length (r_q r)).
    + rewrite !skipn_map, values_rename. reflexivity.
    + rewrite EL. replace (length (r_q r) + length (r_q r))%nat with (length (r_q r) * 2)%nat by lia. rewrite Nat.div_mul; auto.
Qed.

(** When there is a function. *)
Theorem to_casadi_iff RHS Q U mode r : RHS <> [] -> arguments_of RHS Q U false false = Ok r ->
  ((exists f, to_casadi RHS Q U mode = Ok f) <->
   (mode = "x" \/ mode = "q")%string /\
   (length RHS = length (r_q r) \/ length RHS = 2 * length (r_q r))%nat /\
   NoDup (r_q r ++ r_v r ++ r_u r ++ map Static (r_params r))).
Proof.
  intros NE Hr. pose proof (arguments_lengths _ _ _ _ _ _ _ _ Hr) as [LV _]. destruct (arguments_flags _ _ _ _ _ _ _ _ Hr) as [FL FA].
  specialize (FL eq_refl). specialize (FA eq_refl).
  rewrite to_casadi_eq. destruct (mapm normal RHS) as [RHS'|] eqn:E.
  2:{ unfold CasModel.arguments_of in Hr. rewrite E in Hr. discriminate. }
  cbn [rbind]. rewrite Hr. cbn [rbind].
  assert (LR : length RHS' = length RHS) by (apply (mapm_len _ _ _ E)).
  assert (NE' : RHS' <> []) by (intros ->; destruct RHS; cbn in LR; congruence).
  assert (CV : forall e, In e RHS' -> incl (atoms e) (g_vars (groups_of r mode))).
  { intros e He a Ha. pose proof (arguments_cover _ _ IT _ _ _ _ _ _ _ _ _ E Hr He Ha) as C. rewrite FL, FA in C. cbn [map app] in C.
    rewrite groups_vars, <- app_assoc. auto. }
  assert (G : forall funcs, funcs <> [] -> (forall e, In e funcs -> incl (atoms e) (g_vars (groups_of r mode))) ->
    ((exists f, (do outs <- mapm (fun f => sympy2casadi f (g_vars (groups_of r mode)) (g_cas (groups_of r mode))) funcs;
      Ok {| cf_in := map2 (fun n g => (n, fst g, length (snd g))) (names_of mode) (groups_of r mode); cf_out := outs |}) = Ok f) <->
     NoDup (r_q r ++ r_v r ++ r_u r ++ map Static (r_params r)))).
  { intros funcs Nf Cf. assert (EV : r_q r ++ r_v r ++ r_u r ++ map Static (r_params r) = g_vars (groups_of r mode)) by (rewrite groups_vars, <- app_assoc; auto).
    rewrite EV. split.
    - intros [f Hf]. destruct (mapm _ funcs) as [outs|] eqn:Eo; cbn [rbind] in Hf; [|discriminate].
      destruct funcs as [|e funcs]; [congruence|]. pose proof (proj1 (mapm_ok_iff _ _) (ex_intro _ _ Eo) e (or_introl eq_refl)) as S.
      apply sympy2casadi_iff in S. tauto.
    - intros ND. destruct (proj2 (mapm_ok_iff (fun f => sympy2casadi f (g_vars (groups_of r mode)) (g_cas (groups_of r mode))) funcs)) as [outs ->].
      + intros e He. apply sympy2casadi_iff. split; auto.
      + cbn [rbind]; eauto. }
  assert (CX : forall e, In e (map Var (r_v r) ++ RHS') -> incl (atoms e) (g_vars (groups_of r mode))).
  { intros e He. apply in_app_iff in He. destruct He as [He|He]; auto. apply in_map_iff in He. destruct He as (a & <- & Ha).
    intros b [<-|[]]. rewrite groups_vars, !in_app_iff. auto. }
  unfold rhs_funcs_of. rewrite app_length, LV, LR.
  assert (ZZ : (length (r_q r) =? length RHS)%nat = true <-> length RHS = length (r_q r)) by (rewrite Nat.eqb_eq; split; auto).
  assert (LNE : length RHS <> 0%nat) by (destruct RHS; cbn; congruence).
  destruct (String.eqb_spec mode "x") as [->|N1]; [|destruct (String.eqb_spec mode "q") as [->|N2]].
  - destruct (length (r_q r) =? length RHS)%nat eqn:E1.
    + cbn [rbind]. rewrite G by (auto; destruct (r_v r); cbn; auto; discriminate). tauto.
    + destruct (length RHS =? _)%nat eqn:E2.
      * cbn [rbind]. rewrite G by auto. apply Nat.eqb_eq in E2. split; [intros; repeat split; auto; lia|tauto].
      * apply Nat.eqb_neq in E2. split; [intros [? ?]; discriminate|]. intros (_ & [A|A] & _); [rewrite A, Nat.eqb_refl in E1; discriminate|lia].
  - destruct (length (r_q r) =? length RHS)%nat eqn:E1.
    + cbn [rbind]. rewrite G by auto. tauto.
    + destruct (length RHS =? _)%nat eqn:E2.
      * apply Nat.eqb_eq in E2. cbn [rbind]. rewrite G.
        -- split; [intros; repeat split; auto; lia|tauto].
        -- intros F. apply (f_equal (@length expr)) in F. rewrite skipn_length, LR in F. cbn [length] in F.
           assert (length RHS / 2 < length RHS)%nat by (apply Nat.div_lt; lia). lia.
        -- intros e He. apply CV. rewrite <- (firstn_skipn (length RHS / 2) RHS'). apply in_app_iff; auto.
      * apply Nat.eqb_neq in E2. split; [intros [? ?]; discriminate|]. intros (_ & [A|A] & _); [rewrite A, Nat.eqb_refl in E1; discriminate|lia].
  - split; [intros [? ?]; discriminate|tauto].
Qed.
End Orders.
