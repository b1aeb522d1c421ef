From Coq Require Import String Ascii Permutation.
From Verif Require Import Prelude PwInterpModel SymModel SymSpec SymProofs FuncDynModel FuncDynSpec CasModel CasSpec.
Open Scope R_scope.
Open Scope list_scope.

(** ** mapm *)
Lemma mapm_ok_iff {A B} (f : A -> Res B) l : (exists m, mapm f l = Ok m) <-> forall a, In a l -> exists b, f a = Ok b.
Proof.
  induction l as [|a l IH]; cbn; [split; [tauto|eauto]|]. split.
  - intros [m H]. destruct (f a) eqn:E; cbn in H; [|discriminate].
    destruct (mapm f l) eqn:E2; cbn in H; [|discriminate].
    intros b' [<-|Hb]; [eauto|]. apply IH; eauto.
  - intros H. destruct (H a (or_introl eq_refl)) as [b ->]; cbn.
    destruct (proj2 IH) as [m ->]; [auto|]. cbn; eauto.
Qed.
Lemma mapm_map {A B} (f : A -> Res B) (g : A -> B) l m :
  (forall a b, In a l -> f a = Ok b -> b = g a) -> mapm f l = Ok m -> m = map g l.
Proof.
  revert m; induction l as [|a l IH]; intros m H E; cbn in E; [injection E as <-; auto|].
  destruct (f a) eqn:Ea; cbn in E; [|discriminate]. destruct (mapm f l) eqn:El; cbn in E; [|discriminate].
  injection E as <-. cbn. f_equal; [apply H; cbn; auto|apply IH; auto]. intros; apply H; cbn; auto.
Qed.
Lemma mapm_all {A B} (f : A -> Res B) (g : A -> B) l : (forall a, In a l -> f a = Ok (g a)) -> mapm f l = Ok (map g l).
Proof.
  induction l as [|a l IH]; intros H; cbn; auto. rewrite H by (cbn; auto). cbn. rewrite IH by (intros; apply H; cbn; auto). reflexivity.
Qed.
Lemma mapm_compose {A B C} (f : A -> Res B) (g : B -> Res C) (h : A -> C) l : forall m,
  mapm f l = Ok m -> (forall a b, In a l -> f a = Ok b -> g b = Ok (h a)) -> mapm g m = Ok (map h l).
Proof.
  induction l as [|a l IH]; intros m E H; cbn in E; [injection E as <-; auto|].
  destruct (f a) eqn:Ea; cbn in E; [|discriminate]. destruct (mapm f l) eqn:El; cbn in E; [|discriminate].
  injection E as <-. cbn. rewrite (H a b) by (cbn; auto). cbn. rewrite (IH l0); auto. intros; apply H; cbn; auto.
Qed.
Lemma mapm_len {A B} (f : A -> Res B) l : forall m, mapm f l = Ok m -> length m = length l.
Proof.
  induction l as [|a l IH]; intros m E; cbn in E; [injection E as <-; auto|].
  destruct (f a) eqn:Ea; cbn in E; [|discriminate]. destruct (mapm f l) eqn:El; cbn in E; [|discriminate].
  injection E as <-. cbn. rewrite (IH l0); auto.
Qed.

(** ** Names *)
Lemma symb_of_symb a s : diff_to_symb a = Ok s -> symb_of a = Static s.
Proof. unfold symb_of. intros ->; auto. Qed.
Lemma std_std a : std (std a) = std a.
Proof.
  destruct a as [n|]; auto. cbn. destruct (std_name n) as [n'|] eqn:E; cbn; [rewrite (std_name_idem _ _ E); auto|rewrite E; auto].
Qed.
Lemma diff_to_symb_ok a : (exists s, diff_to_symb a = Ok s) <-> (forall n k, a = Dyn n (S k) -> n <> ""%string /\ n <> "q"%string).
Proof.
  destruct a as [s|n [|k]]; [split; [discriminate|intros; eexists; reflexivity]| split; [discriminate|intros; eexists; reflexivity]|].
  cbn. destruct n as [|c r]; [cbn; split; [intros [? ?]; discriminate|intros H; destruct (H _ _ eq_refl); congruence]|].
  cbn. destruct (Ascii.eqb_spec c "q"%char) as [->|Hc]; cbn.
  - destruct r as [|d r]; cbn.
    + split; [intros [? ?]; discriminate|intros H; destruct (H _ _ eq_refl); congruence].
    + split; [|eauto]. intros _ n k' E; injection E as <- _. split; discriminate.
  - split; [|eauto]. intros _ n k' E; injection E as <- _. split; [discriminate|congruence].
Qed.
Lemma called_static a : (forall n k, a = Dyn n (S k) -> n <> ""%string /\ n <> "q"%string) ->
  exists s, called a = Static s /\ std_name s = None.
Proof.
  intros H. apply diff_to_symb_ok in H. destruct H as [s E]. unfold called. rewrite (symb_of_symb _ _ E). cbn.
  destruct (std_name s) as [s'|] eqn:E2; eexists; split; eauto. apply (std_name_idem _ _ E2).
Qed.
Lemma called_called a : (forall n k, a = Dyn n (S k) -> n <> ""%string /\ n <> "q"%string) -> called (called a) = called a.
Proof. intros H. destruct (called_static a H) as (s & -> & E). unfold called. cbn. rewrite E. auto. Qed.
Lemma rename_rename f g e : rename f (rename g e) = rename (fun a => f (g a)) e.
Proof. induction e; cbn; congruence. Qed.
Lemma rename_ext f g e : (forall a, In a (atoms e) -> f a = g a) -> rename f e = rename g e.
Proof.
  induction e; cbn; intros H; auto; f_equal; auto; try (apply IHe1; intros; apply H, in_app_iff; auto); apply IHe2; intros; apply H, in_app_iff; auto.
Qed.
Lemma rename_id e : rename (fun a => a) e = e.
Proof. induction e; cbn; congruence. Qed.

Section Orders.
Variable dyn_order : expr -> list atom.
Variable sym_order : expr -> list string.
Hypothesis IT : iterates dyn_order sym_order.
Notation normal := (normal dyn_order sym_order).
Notation arguments_of := (arguments_of dyn_order sym_order).

Lemma normal_value e e' : normal e = Ok e' -> e' = rename called e.
Proof.
  unfold CasModel.normal. destruct (diff_to_symb_expr (dyn_order e) e) as [e1|] eqn:E; cbn [rbind]; [|discriminate]. intros H; injection H as <-.
  destruct (IT e) as (D & _ & _).
  assert (E1 : e1 = rename symb_of e).
  { apply (diff_to_symb_expr_value (dyn_order e)); auto.
    - apply Forall_forall. intros a Ha; apply D; auto.
    - intros a Ha Hd; apply D; auto. }
  destruct (IT e1) as (_ & S1 & _).
  rewrite standard_notation_value.
  - rewrite E1, rename_rename. reflexivity.
  - intros n Hn _. apply S1; auto.
Qed.
Definition nameable (e : expr) : Prop := forall n k, In (Dyn n (S k)) (atoms e) -> n <> ""%string /\ n <> "q"%string.
Lemma normal_ok e : (exists e', normal e = Ok e') <-> nameable e.
Proof.
  unfold CasModel.normal. destruct (IT e) as (D & _ & _). split.
  - intros [e' H]. destruct (diff_to_symb_expr (dyn_order e) e) as [e1|] eqn:E; cbn [rbind] in H; [|discriminate].
    intros n k Hin. apply (proj1 (diff_to_symb_expr_ok (dyn_order e) e) (ex_intro _ e1 E) n k). apply D; auto.
  - intros H. destruct (proj2 (diff_to_symb_expr_ok (dyn_order e) e)) as [e1 ->].
    + intros n k Hin. apply (H n k). apply D; auto.
    + cbn [rbind]. eauto.
Qed.
Lemma nameable_atom e a : nameable e -> In a (atoms e) -> forall n k, a = Dyn n (S k) -> n <> ""%string /\ n <> "q"%string.
Proof. intros H Ha n k ->. apply (H n k); auto. Qed.
Lemma normal_again e e' : normal e = Ok e' -> normal e' = Ok e'.
Proof.
  intros H. pose proof (proj1 (normal_ok e) (ex_intro _ _ H)) as N. pose proof (normal_value _ _ H) as ->.
  assert (N' : nameable (rename called e)).
  { intros n k Hin. rewrite atoms_rename in Hin. apply in_map_iff in Hin. destruct Hin as (a & E & Ha).
    destruct (called_static a (nameable_atom _ _ N Ha)) as (s & E2 & _). congruence. }
  destruct (proj2 (normal_ok _) N') as [e2 E2]. rewrite E2. f_equal. rewrite (normal_value _ _ E2), rename_rename.
  apply rename_ext. intros a Ha. apply called_called, (nameable_atom _ _ N Ha).
Qed.
Lemma normals l l' : mapm normal l = Ok l' -> l' = map (rename called) l /\ mapm normal l' = Ok l'.
Proof.
  intros H. split.
  - eapply mapm_map; [|exact H]. intros; apply normal_value; auto.
  - rewrite (mapm_compose normal normal (rename called) l l' H); [f_equal; symmetry; eapply mapm_map; [|exact H]; intros; apply normal_value; auto|].
    intros a b _ E. rewrite (normal_again _ _ E). f_equal. apply normal_value; auto.
Qed.
Lemma normals_ok l : (exists l', mapm normal l = Ok l') <-> can_be_called l.
Proof.
  rewrite mapm_ok_iff. unfold can_be_called, symbols_in. split.
  - intros H n k Hin. apply in_concat in Hin. destruct Hin as (x & Hx & Hin). apply in_map_iff in Hx. destruct Hx as (e & <- & He).
    apply (proj1 (normal_ok e) (H e He) n k Hin).
  - intros H e He. apply normal_ok. intros n k Hin. apply (H n k). apply in_concat. exists (atoms e); split; auto. apply in_map; auto.
Qed.
Lemma arguments_again l l' Q U sl sa : mapm normal l = Ok l' -> arguments_of l' Q U sl sa = arguments_of l Q U sl sa.
Proof. intros H. unfold CasModel.arguments_of. rewrite H, (proj2 (normals _ _ H)). reflexivity. Qed.

(** Every symbol is an argument. *)
Lemma find_arguments_cover sets Q U sl sa r s : find_arguments sets Q U sl sa = Ok r -> In s (concat sets) ->
  In (Static s) (r_q r ++ r_v r ++ r_a r ++ r_u r ++ map Static (r_lambdas r) ++ map Static (r_params r)).
Proof.
  rewrite find_arguments_eq. intros H Hs.
  destruct (q_groups Q) as [[[q v] a]|]; cbn [rbind] in H; [|discriminate].
  destruct (u_group sets U) as [u|]; cbn [rbind] in H; [|discriminate]. cbv zeta in H.
  set (f := all_found (q ++ v) u a sets) in *.
  assert (F : forall g, group_of (q ++ v) u a s = g -> In s (f_get g f)).
  { intros g E. unfold f. rewrite all_found_in. auto. }
  injection H as <-. cbn [r_q r_v r_a r_u r_params r_lambdas]. rewrite !in_app_iff, !map_static_in, sorted_in, !in_app_iff.
  destruct (group_of (q ++ v) u a s) eqn:G; specialize (F _ eq_refl); cbn [f_get] in F.
  - auto 10.
  - destruct sl; rewrite sorted_in; auto 10.
  - unfold group_of in G. destruct (in_dec atom_eq_dec (Static s) u) as [I|I].
    + destruct U; auto 10. rewrite map_static_in, sorted_in. auto 10.
    + destruct (in_dec atom_eq_dec (Static s) (q ++ v)); [discriminate|]. destruct (in_dec atom_eq_dec (Static s) a); [discriminate|]. destruct (is_lambda s); discriminate.
  - unfold group_of in G. destruct (in_dec atom_eq_dec (Static s) u) as [I|I]; [discriminate|].
    destruct (in_dec atom_eq_dec (Static s) (q ++ v)) as [J|J].
    + apply in_app_iff in J. destruct J; auto.
    + destruct (in_dec atom_eq_dec (Static s) a); [discriminate|]. destruct (is_lambda s); discriminate.
  - destruct sa; [|rewrite sorted_in; auto 10].
    unfold group_of in G. destruct (in_dec atom_eq_dec (Static s) u) as [I|I]; [discriminate|].
    destruct (in_dec atom_eq_dec (Static s) (q ++ v)) as [J|J]; [discriminate|].
    destruct (in_dec atom_eq_dec (Static s) a); auto. destruct (is_lambda s); discriminate.
Qed.
Lemma arguments_cover l l' Q U sl sa r e a : mapm normal l = Ok l' -> arguments_of l Q U sl sa = Ok r -> In e l' -> In a (atoms e) ->
  In a (r_q r ++ r_v r ++ r_a r ++ r_u r ++ map Static (r_lambdas r) ++ map Static (r_params r)).
Proof.
  intros H Hr He Ha. unfold CasModel.arguments_of in Hr. rewrite H in Hr. cbn [rbind] in Hr.
  pose proof (proj1 (normals_ok l) (ex_intro _ _ H)) as N. pose proof (proj1 (normals _ _ H)) as E.
  assert (exists s, a = Static s) as [s ->].
  { subst l'. apply in_map_iff in He. destruct He as (e0 & <- & He0). rewrite atoms_rename in Ha. apply in_map_iff in Ha. destruct Ha as (b & <- & Hb).
    destruct (called_static b) as (s & -> & _); [|eauto]. intros n k ->. apply (N n k). apply in_concat. exists (atoms e0); split; auto. apply in_map; auto. }
  apply (find_arguments_cover _ _ _ _ _ _ s Hr). apply in_concat. exists (sym_order e). split; [apply in_map; auto|]. apply (IT e); auto.
Qed.
Lemma arguments_flags l Q U sl sa r : arguments_of l Q U sl sa = Ok r -> (sl = false -> r_lambdas r = []) /\ (sa = false -> r_a r = []).
Proof.
  unfold CasModel.arguments_of. destruct (mapm normal l); cbn [rbind]; [|discriminate]. rewrite find_arguments_eq.
  destruct (q_groups Q) as [[[q v] a']|]; cbn [rbind]; [|discriminate]. destruct (u_group _ U); cbn [rbind]; [|discriminate].
  cbv zeta. intros H; injection H as <-. cbn. split; intros ->; auto.
Qed.
Lemma arguments_lengths l Q U sl sa r : arguments_of l Q U sl sa = Ok r -> length (r_v r) = length (r_q r) /\ (sa = true -> length (r_a r) = length (r_q r)).
Proof.
  unfold CasModel.arguments_of. destruct (mapm normal l); cbn [rbind]; [|discriminate]. rewrite find_arguments_eq.
  destruct (q_groups Q) as [[[q v] a']|] eqn:EQ; cbn [rbind]; [|discriminate]. destruct (u_group _ U); cbn [rbind]; [|discriminate].
  cbv zeta. intros H; injection H as <-. cbn.
  destruct Q as [n|lq|]; cbn in EQ; [|destruct (mapm (symb_d 0) lq) eqn:E0; [|discriminate]; destruct (mapm (symb_d 1) lq) eqn:E1; [|discriminate]; destruct (mapm (symb_d 2) lq) eqn:E2; [|discriminate]|discriminate].
  - injection EQ as <- <- <-. unfold numbered. rewrite !map_length. split; auto. intros ->. rewrite map_length; auto.
  - cbn in EQ. injection EQ as <- <- <-. rewrite (mapm_len _ _ _ E0), (mapm_len _ _ _ E1). split; auto. intros ->. apply (mapm_len _ _ _ E2).
Qed.
Lemma arguments_q_list l lq U sl sa r : arguments_of l (Q_list lq) U sl sa = Ok r -> length (r_q r) = length lq.
Proof.
  unfold CasModel.arguments_of. destruct (mapm normal l); cbn [rbind]; [|discriminate]. rewrite find_arguments_eq.
  destruct (q_groups (Q_list lq)) as [[[q v] a']|] eqn:EQ; cbn [rbind]; [|discriminate]. destruct (u_group _ U); cbn [rbind]; [|discriminate].
  cbv zeta. intros H; injection H as <-. cbn in *.
  destruct (mapm (symb_d 0) lq) eqn:E0; [|discriminate]; destruct (mapm (symb_d 1) lq) eqn:E1; [|discriminate]; destruct (mapm (symb_d 2) lq) eqn:E2; [|discriminate].
  cbn in EQ. injection EQ as <- <- <-. apply (mapm_len _ _ _ E0).
Qed.

(** ** Functions of groups of symbols *)
Definition g_vars (gs : list (sym * list atom)) : list atom := concat (map snd gs).
Definition g_cas (gs : list (sym * list atom)) : list (sym * nat) := concat (map (fun g => comps (fst g) (length (snd g))) gs).
Definition g_vals (val : atom -> R) (gs : list (sym * list atom)) : list (sym * vec) := map (fun g => (fst g, map val (snd g))) gs.
Lemma combine_app {A B} (a a' : list A) (b b' : list B) : length a = length b -> combine (a ++ a') (b ++ b') = combine a b ++ combine a' b'.
Proof. revert b; induction a; intros [|y b] H; cbn in *; try discriminate; auto. f_equal; auto. Qed.
Lemma comps_length s n : length (comps s n) = n.
Proof. unfold comps. rewrite map_length, seq_length; auto. Qed.
Lemma in_comps (l : list atom) : forall k a (s s' : sym) i, In (a, (s', i)) (combine l (map (fun ii => (s, ii)) (seq k (length l)))) -> s' = s /\ (k <= i)%nat /\ nth_error l (i - k) = Some a.
Proof.
  induction l as [|b l IH]; intros k a s s' i H; cbn in H; [tauto|]. destruct H as [H|H].
  - injection H as <- <- <-. repeat split; auto. rewrite Nat.sub_diag. reflexivity.
  - apply IH in H. destruct H as (-> & H1 & H2). repeat split; [lia|]. replace (i - k)%nat with (S (i - S k)) by lia. auto.
Qed.
Lemma in_groups gs a s i : In (a, (s, i)) (combine (g_vars gs) (g_cas gs)) -> exists l, In (s, l) gs /\ nth_error l i = Some a.
Proof.
  induction gs as [|[s0 l0] gs IH]; [cbn; tauto|]. unfold g_vars, g_cas in *. cbn [map concat fst snd].
  rewrite combine_app by (rewrite comps_length; auto). rewrite in_app_iff. intros [H|H].
  - apply in_comps in H. destruct H as (-> & _ & H). rewrite Nat.sub_0_r in H. exists l0; cbn; auto.
  - destruct (IH H) as (l & H1 & H2); exists l; cbn; auto.
Qed.
Lemma lookup_groups val gs s l : NoDup (map fst gs) -> In (s, l) gs -> lookup s (g_vals val gs) = Ok (map val l).
Proof.
  induction gs as [|[s0 l0] gs IH]; cbn; [tauto|]. intros ND H. inversion ND as [|? ? N1 N2]; subst.
  destruct (sym_eq_dec s s0) as [->|N].
  - destruct H as [E|H]; [injection E as ->; auto|]. destruct N1. apply in_map_iff. exists (s0, l); auto.
  - destruct H as [E|H]; [congruence|]. apply IH; auto.
Qed.
Lemma arg_of_in a vars cvars : length vars = length cvars -> In a vars -> exists s i, arg_of a vars cvars = Ok (C_sym s i) /\ In (a, (s, i)) (combine vars cvars).
Proof.
  revert cvars; induction vars as [|b vars IH]; intros [|[s i] cvars] H Ha; cbn in *; try tauto; try discriminate.
  destruct (atom_eq_dec a b) as [->|N]; [eauto|]. destruct Ha as [->|Ha]; [congruence|].
  destruct (IH cvars) as (s' & i' & E & H'); auto. exists s', i'; auto.
Qed.
Lemma arg_of_iff a vars cvars : length vars = length cvars -> ((exists c, arg_of a vars cvars = Ok c) <-> In a vars).
Proof.
  intros H. split; [|intros Ha; destruct (arg_of_in _ _ _ H Ha) as (s & i & E & _); eauto].
  revert cvars H; induction vars as [|b vars IH]; intros [|[s i] cvars] H [c E]; cbn in *; try discriminate.
  destruct (atom_eq_dec a b) as [->|N]; auto. right; eapply IH; eauto.
Qed.
Lemma g_lengths gs : length (g_vars gs) = length (g_cas gs).
Proof. unfold g_vars, g_cas. induction gs as [|[s l] gs IH]; [reflexivity|]. cbn [map concat fst snd]. rewrite !app_length, comps_length. auto. Qed.
Lemma translate_iff vars cvars e : length vars = length cvars -> ((exists c, translate vars cvars e = Ok c) <-> incl (atoms e) vars).
Proof.
  intros H. induction e; cbn.
  - split; [intros _ a []|eauto].
  - rewrite arg_of_iff by auto. split; [intros Ha b [<-|[]]; auto|intros Hi; apply Hi; cbn; auto].
  - split.
    + intros [c E]. destruct (translate vars cvars e1); cbn in E; [|discriminate]. destruct (translate vars cvars e2); cbn in E; [|discriminate].
      apply incl_app; [apply IHe1|apply IHe2]; eauto.
    + intros Hi. destruct (proj2 IHe1) as [c1 ->]; [intros a Ha; apply Hi, in_app_iff; auto|].
      destruct (proj2 IHe2) as [c2 ->]; [intros a Ha; apply Hi, in_app_iff; auto|]. cbn; eauto.
  - split.
    + intros [c E]. destruct (translate vars cvars e1); cbn in E; [|discriminate]. destruct (translate vars cvars e2); cbn in E; [|discriminate].
      apply incl_app; [apply IHe1|apply IHe2]; eauto.
    + intros Hi. destruct (proj2 IHe1) as [c1 ->]; [intros a Ha; apply Hi, in_app_iff; auto|].
      destruct (proj2 IHe2) as [c2 ->]; [intros a Ha; apply Hi, in_app_iff; auto|]. cbn; eauto.
  - split.
    + intros [c E]. destruct (translate vars cvars e); cbn in E; [|discriminate]. apply IHe; eauto.
    + intros Hi. destruct (proj2 IHe Hi) as [c ->]. cbn; eauto.
Qed.
Lemma translate_value gs val e : NoDup (map fst gs) -> forall c, translate (g_vars gs) (g_cas gs) e = Ok c -> ceval (g_vals val gs) c = Ok (eval val e).
Proof.
  intros ND. induction e; intros c E; cbn in E.
  - injection E as <-; auto.
  - pose proof (proj1 (arg_of_iff a _ _ (g_lengths gs)) (ex_intro _ _ E)) as Ha.
    destruct (arg_of_in a _ _ (g_lengths gs) Ha) as (s & i & E' & Hc). rewrite E in E'. injection E' as ->.
    destruct (in_groups _ _ _ _ Hc) as (l & H1 & H2). cbn. rewrite (lookup_groups val gs s l ND H1). cbn.
    rewrite nth_error_map, H2. reflexivity.
  - destruct (translate _ _ e1) eqn:E1; cbn in E; [|discriminate]. destruct (translate _ _ e2) eqn:E2; cbn in E; [|discriminate].
    injection E as <-. cbn. rewrite (IHe1 _ eq_refl), (IHe2 _ eq_refl). reflexivity.
  - destruct (translate _ _ e1) eqn:E1; cbn in E; [|discriminate]. destruct (translate _ _ e2) eqn:E2; cbn in E; [|discriminate].
    injection E as <-. cbn. rewrite (IHe1 _ eq_refl), (IHe2 _ eq_refl). reflexivity.
  - destruct (translate _ _ e) eqn:E1; cbn in E; [|discriminate].
    injection E as <-. cbn. rewrite (IHe _ eq_refl). reflexivity.
Qed.
Lemma nodup_b_iff l : nodup_b l = true <-> NoDup l.
Proof.
  induction l as [|a l IH]; cbn; [split; [constructor|auto]|]. rewrite andb_true_iff, IH.
  destruct (in_dec atom_eq_dec a l); cbn; split.
  - intros [? _]; discriminate.
  - intros H; inversion H; tauto.
  - intros [_ H]; constructor; auto.
  - intros H; inversion H; auto.
Qed.
Lemma sympy2casadi_iff gs e : (exists c, sympy2casadi e (g_vars gs) (g_cas gs) = Ok c) <-> NoDup (g_vars gs) /\ incl (atoms e) (g_vars gs).
Proof.
  unfold sympy2casadi. rewrite <- nodup_b_iff, g_lengths, Nat.eqb_refl. destruct (nodup_b (g_vars gs)); cbn [negb].
  - rewrite translate_iff by apply g_lengths. tauto.
  - split; [intros [? ?]; discriminate|intros [? _]; discriminate].
Qed.
Lemma function_value gs (names : list string) val funcs outs : NoDup (map fst gs) -> length names = length gs ->
  mapm (fun f => sympy2casadi f (g_vars gs) (g_cas gs)) funcs = Ok outs ->
  cas_call {| cf_in := map2 (fun n g => (n, fst g, length (snd g))) names gs; cf_out := outs |} (map (fun g => map val (snd g)) gs) =
  Ok (map (eval val) funcs).
Proof.
  intros ND L H. unfold cas_call, cf_sizes. cbn [cf_in cf_out].
  assert (E1 : map snd (map2 (fun (n : string) (g : sym * list atom) => (n, fst g, length (snd g))) names gs) = map (fun g => length (snd g)) gs).
  { clear -L. revert gs L; induction names; intros [|g gs] L; cbn in *; try discriminate; auto. f_equal; auto. }
  assert (E2 : map (fun i : string * sym * nat => snd (fst i)) (map2 (fun (n : string) (g : sym * list atom) => (n, fst g, length (snd g))) names gs) = map fst gs).
  { clear -L. revert gs L; induction names; intros [|g gs] L; cbn in *; try discriminate; auto. f_equal; auto. }
  rewrite E1, E2. rewrite map_map. destruct (list_eq_dec _ _ _) as [_|N].
  - assert (E3 : combine (map fst gs) (map (fun g => map val (snd g)) gs) = g_vals val gs).
    { clear. unfold g_vals. induction gs; cbn; congruence. }
    rewrite E3. apply (mapm_compose _ _ (eval val) _ _ H). intros a c _ Ec. apply translate_value; auto.
    unfold sympy2casadi in Ec. destruct (negb _); [discriminate|]. destruct (negb _); [discriminate|]. auto.
  - destruct N. clear. apply map_ext. intros; apply map_length.
Qed.
End Orders.
