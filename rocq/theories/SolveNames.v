(** Proofs about the names of the results. *)
From Coq Require Import String Ascii DecimalString ZArith Reals List Lia Bool.
From Verif Require Import Prelude PwInterpModel DispatchModel DispatchSpec DispatchProofs SolveModel SolveSpec SolveProofs.
Import ListNotations.
Open Scope string_scope.
Open Scope list_scope.

(** A name, cut before its first "_". *)
Fixpoint before (s : string) : string :=
  match s with
  | EmptyString => EmptyString
  | String c s' => if Ascii.eqb c "_" then EmptyString else String c (before s')
  end.
Fixpoint rest (s : string) : string :=
  match s with
  | EmptyString => EmptyString
  | String c s' => if Ascii.eqb c "_" then s else rest s'
  end.
Definition plain (s : string) : bool := String.eqb (before s) s.
Definition suffix (s : string) : bool := match s with EmptyString => true | String c _ => Ascii.eqb c "_" end.

Lemma before_append : forall a s, plain a = true -> suffix s = true -> before (String.append a s) = a.
Proof.
  induction a as [|c a IH]; intros s Ha Hs.
  - cbn. destruct s as [|c s]; [reflexivity|]. cbn in *. rewrite Hs. reflexivity.
  - unfold plain in Ha. cbn in *. destruct (Ascii.eqb c "_"); [discriminate|]. cbn in Ha.
    rewrite Ascii.eqb_refl in Ha. cbn in Ha. f_equal. apply IH; [exact Ha|exact Hs].
Qed.
Lemma rest_append : forall a s, plain a = true -> suffix s = true -> rest (String.append a s) = s.
Proof.
  induction a as [|c a IH]; intros s Ha Hs.
  - cbn. destruct s as [|c s]; [reflexivity|]. cbn in *. rewrite Hs. reflexivity.
  - unfold plain in Ha. cbn in *. destruct (Ascii.eqb c "_"); [discriminate|]. cbn in Ha.
    rewrite Ascii.eqb_refl in Ha. cbn in Ha. apply IH; [exact Ha|exact Hs].
Qed.
Lemma plain_append : forall a b, plain a = true -> plain b = true -> plain (String.append a b) = true.
Proof.
  induction a as [|c a IH]; intros b Ha Hb; [exact Hb|]. unfold plain in *. cbn in *.
  destruct (Ascii.eqb c "_"); [discriminate|]. cbn in *. rewrite Ascii.eqb_refl in *. cbn in *. apply IH; assumption.
Qed.
Lemma plain_digits : forall d, plain (NilEmpty.string_of_uint d) = true.
Proof. unfold plain. induction d; cbn; try reflexivity; exact IHd. Qed.
Lemma plain_der : forall k, plain (der_name k) = true.
Proof.
  intros k. unfold der_name. destruct (le_lt_dec 7 k) as [H|H].
  - rewrite nth_overflow by (cbn; lia). apply plain_append; [reflexivity|]. apply plain_append; [apply plain_digits|reflexivity].
  - do 7 (destruct k as [|k]; [reflexivity|]). lia.
Qed.

Definition base_names : list string := ["q"; "v"; "a"; "jerk"; "snap"; "crackle"; "pop"].
Definition like_der (s : string) : bool :=
  existsb (String.eqb s) base_names || match s with String c _ => Ascii.eqb c "d" | _ => false end.
Lemma like_der_name : forall k, like_der (der_name k) = true.
Proof.
  intros k. unfold der_name. destruct (le_lt_dec 7 k) as [H|H].
  - rewrite nth_overflow by (cbn; lia). apply orb_true_r.
  - do 7 (destruct k as [|k]; [reflexivity|]). lia.
Qed.

Lemma in_ders : forall order sufs x, In x (ders order sufs) ->
  exists k s, (k <= order)%nat /\ In s sufs /\ x = String.append (der_name k) s.
Proof.
  intros order sufs x H. unfold ders in H. rewrite firstn_seq_map in H. apply in_flat_map in H. destruct H as (n & Hn & Hx).
  apply in_map_iff in Hn. destruct Hn as (k & <- & Hk). apply in_seq in Hk. apply in_map_iff in Hx. destruct Hx as (s & <- & Hs).
  exists k, s. split; [lia|split; [exact Hs|reflexivity]].
Qed.

Lemma ders_NoDup : forall order sufs, forallb suffix sufs = true -> NoDup sufs -> NoDup (ders order sufs).
Proof.
  intros order sufs Hs Hn. unfold ders. rewrite firstn_seq_map. rewrite forallb_forall in Hs.
  assert (H : forall l, NoDup l -> NoDup (flat_map (fun n => map (String.append n) sufs) (map der_name l))); [|apply H, seq_NoDup].
  intros l Hl. induction Hl as [|k l Hk Hl IH]; [constructor|]. cbn [map flat_map]. apply NoDup_app_of; [|exact IH|].
  - apply FinFun.Injective_map_NoDup; [|exact Hn]. intros a b. apply append_inj_l.
  - intros x Hx Hx'. apply in_map_iff in Hx. destruct Hx as (s & <- & Hi).
    apply in_flat_map in Hx'. destruct Hx' as (n & Hn1 & Hn2). apply in_map_iff in Hn1. destruct Hn1 as (k' & <- & Hk').
    apply in_map_iff in Hn2. destruct Hn2 as (s' & He & Hi').
    apply (f_equal before) in He. rewrite !before_append in He by (try apply plain_der; apply Hs; assumption).
    apply der_name_inj in He. subst k'. exact (Hk Hk').
Qed.
Lemma ders_apart : forall order s1 s2, forallb suffix (s1 ++ s2) = true -> NoDup (s1 ++ s2) ->
  forall x, In x (ders order s1) -> In x (ders order s2) -> False.
Proof.
  intros order s1 s2 Hs Hn x H1 H2. rewrite forallb_forall in Hs.
  apply in_ders in H1, H2. destruct H1 as (k1 & a1 & _ & I1 & E1), H2 as (k2 & a2 & _ & I2 & E2). subst x.
  apply (f_equal rest) in E2. rewrite !rest_append in E2 by (try apply plain_der; apply Hs; apply in_or_app; auto).
  subst a2. exact (NoDup_app_no _ _ a1 Hn I1 I2).
Qed.
Definition off (sufs : list string) (s : string) : bool := negb (existsb (String.eqb (rest s)) sufs && like_der (before s)).
Lemma lits_apart : forall order sufs lits, forallb suffix sufs = true -> forallb (off sufs) lits = true ->
  forall x, In x lits -> In x (ders order sufs) -> False.
Proof.
  intros order sufs lits Hs Hl x H1 H2. rewrite forallb_forall in Hs, Hl. apply Hl in H1. unfold off in H1.
  apply in_ders in H2. destruct H2 as (k & s & _ & I & ->).
  rewrite before_append, rest_append in H1 by (try apply plain_der; apply Hs; exact I).
  rewrite like_der_name, andb_true_r in H1. apply negb_true_iff in H1.
  assert (H : existsb (String.eqb s) sufs = true) by (apply existsb_exists; exists s; split; [exact I|apply String.eqb_refl]).
  congruence.
Qed.

Lemma append_assoc : forall a b c, String.append (String.append a b) c = String.append a (String.append b c).
Proof. induction a as [|x a IH]; intros b c; [reflexivity|]. cbn. f_equal. apply IH. Qed.
Lemma map_ders : forall order sufs t, map (fun k => String.append k t) (ders order sufs) = ders order (map (fun s => String.append s t) sufs).
Proof.
  intros order sufs t. unfold ders. induction (get_q_and_ders_names order) as [|n l IH]; [reflexivity|].
  cbn [flat_map]. rewrite map_app, IH. f_equal. rewrite !map_map. apply map_ext. intros s. apply append_assoc.
Qed.

Fixpoint nodupb (l : list string) : bool := match l with [] => true | a :: l' => negb (existsb (String.eqb a) l') && nodupb l' end.
Lemma nodupb_ok : forall l, nodupb l = true -> NoDup l.
Proof.
  induction l as [|a l IH]; intros H; [constructor|]. cbn in H. apply andb_true_iff in H. destruct H as [H1 H2]. constructor; [|apply IH; exact H2].
  intro Hi. apply negb_true_iff in H1. assert (X : existsb (String.eqb a) l = true) by (apply existsb_exists; exists a; split; [exact Hi|apply String.eqb_refl]). congruence.
Qed.

(** A list made of literal names and two groups of names of derivatives. *)
Lemma mixed : forall order l1 s1 l2 s2 l3 s3 l4,
  forallb suffix (s1 ++ s2 ++ s3) = true -> nodupb (s1 ++ s2 ++ s3) = true -> nodupb (l1 ++ l2 ++ l3 ++ l4) = true ->
  forallb (off (s1 ++ s2 ++ s3)) (l1 ++ l2 ++ l3 ++ l4) = true ->
  NoDup (l1 ++ ders order s1 ++ l2 ++ ders order s2 ++ l3 ++ ders order s3 ++ l4).
Proof.
  intros order l1 s1 l2 s2 l3 s3 l4 Hs Hn Hl Ho.
  assert (HD : NoDup (ders order (s1 ++ s2 ++ s3))) by (apply ders_NoDup; [exact Hs|apply nodupb_ok; exact Hn]).
  apply nodupb_ok in Hn, Hl. pose proof (lits_apart order _ _ Hs Ho) as Hapart.
  assert (I1 : incl (ders order s1) (ders order (s1 ++ s2 ++ s3))).
  { intros x Hx. unfold ders in *. apply in_flat_map in Hx. destruct Hx as (n & Hx1 & Hx2). apply in_flat_map. exists n. split; [exact Hx1|]. rewrite map_app. apply in_or_app; auto. }
  assert (I2 : incl (ders order s2) (ders order (s1 ++ s2 ++ s3))).
  { intros x Hx. unfold ders in *. apply in_flat_map in Hx. destruct Hx as (n & Hx1 & Hx2). apply in_flat_map. exists n. split; [exact Hx1|]. rewrite !map_app. apply in_or_app; right; apply in_or_app; auto. }
  assert (I3 : incl (ders order s3) (ders order (s1 ++ s2 ++ s3))).
  { intros x Hx. unfold ders in *. apply in_flat_map in Hx. destruct Hx as (n & Hx1 & Hx2). apply in_flat_map. exists n. split; [exact Hx1|]. rewrite !map_app. apply in_or_app; right; apply in_or_app; auto. }
  assert (N1 : NoDup (ders order s1)). { apply ders_NoDup; [rewrite !forallb_app in Hs; apply andb_true_iff in Hs; apply Hs|exact (NoDup_app_l _ _ Hn)]. }
  assert (N2 : NoDup (ders order s2)). { apply ders_NoDup; [rewrite !forallb_app in Hs; apply andb_true_iff in Hs; destruct Hs as [_ Hs]; apply andb_true_iff in Hs; apply Hs|exact (NoDup_app_l _ _ (NoDup_app_r _ _ Hn))]. }
  assert (N3 : NoDup (ders order s3)). { apply ders_NoDup; [rewrite !forallb_app in Hs; apply andb_true_iff in Hs; destruct Hs as [_ Hs]; apply andb_true_iff in Hs; apply Hs|exact (NoDup_app_r _ _ (NoDup_app_r _ _ Hn))]. }
  assert (D1 : forall x, In x (ders order s1) -> In x (ders order s2) \/ In x (ders order s3) -> False).
  { intros x Hx Hx'. apply (ders_apart order s1 (s2 ++ s3) Hs Hn x Hx). unfold ders. apply in_flat_map.
    destruct Hx' as [Hx'|Hx']; unfold ders in Hx'; apply in_flat_map in Hx'; destruct Hx' as (n & A & B); exists n; (split; [exact A|]); rewrite map_app; apply in_or_app; auto. }
  assert (D2 : forall x, In x (ders order s2) -> In x (ders order s3) -> False).
  { apply (ders_apart order s2 s3); [rewrite !forallb_app in *; apply andb_true_iff in Hs; apply Hs|exact (NoDup_app_r _ _ Hn)]. }
  clear Hs Hn Ho HD.
  apply NoDup_app_of; [exact (NoDup_app_l _ _ Hl)| |].
  - apply NoDup_app_of; [exact N1| |].
    + apply NoDup_app_of; [exact (NoDup_app_l _ _ (NoDup_app_r _ _ Hl))| |].
      * apply NoDup_app_of; [exact N2| |].
        -- apply NoDup_app_of; [exact (NoDup_app_l _ _ (NoDup_app_r _ _ (NoDup_app_r _ _ Hl)))| |].
           ++ apply NoDup_app_of; [exact N3|exact (NoDup_app_r _ _ (NoDup_app_r _ _ (NoDup_app_r _ _ Hl)))|].
              intros x A B. apply (Hapart x); [|apply I3; exact A]. rewrite !in_app_iff; auto.
           ++ intros x A B. apply in_app_or in B. destruct B as [B|B].
              ** apply (Hapart x); [rewrite !in_app_iff; auto|apply I3; exact B].
              ** exact (NoDup_app_no _ _ x (NoDup_app_r _ _ (NoDup_app_r _ _ Hl)) A B).
        -- intros x A B. rewrite !in_app_iff in B. destruct B as [B|[B|B]].
           ** apply (Hapart x); [rewrite !in_app_iff; auto|apply I2; exact A].
           ** exact (D2 x A B).
           ** apply (Hapart x); [rewrite !in_app_iff; auto|apply I2; exact A].
      * intros x A B. rewrite !in_app_iff in B. destruct B as [B|[B|[B|B]]].
        ** apply (Hapart x); [rewrite !in_app_iff; auto|apply I2; exact B].
        ** apply (NoDup_app_no _ _ x (NoDup_app_r _ _ Hl) A). apply in_or_app; auto.
        ** apply (Hapart x); [rewrite !in_app_iff; auto|apply I3; exact B].
        ** apply (NoDup_app_no _ _ x (NoDup_app_r _ _ Hl) A). apply in_or_app; auto.
    + intros x A B. rewrite !in_app_iff in B. destruct B as [B|[B|[B|[B|B]]]].
      ** apply (Hapart x); [rewrite !in_app_iff; auto|apply I1; exact A].
      ** apply (D1 x A); auto.
      ** apply (Hapart x); [rewrite !in_app_iff; auto|apply I1; exact A].
      ** apply (D1 x A); auto.
      ** apply (Hapart x); [rewrite !in_app_iff; auto|apply I1; exact A].
  - intros x A B. rewrite !in_app_iff in B. destruct B as [B|[B|[B|[B|[B|B]]]]].
    ** apply (Hapart x); [rewrite !in_app_iff; auto|apply I1; exact B].
    ** apply (NoDup_app_no _ _ x Hl A). rewrite !in_app_iff; auto.
    ** apply (Hapart x); [rewrite !in_app_iff; auto|apply I2; exact B].
    ** apply (NoDup_app_no _ _ x Hl A). rewrite !in_app_iff; auto.
    ** apply (Hapart x); [rewrite !in_app_iff; auto|apply I3; exact B].
    ** apply (NoDup_app_no _ _ x Hl A). rewrite !in_app_iff; auto.
Qed.

Lemma ders_nil : forall order, ders order [] = [].
Proof. intros order. unfold ders. induction (get_q_and_ders_names order); [reflexivity|exact IHl]. Qed.

Lemma names_apart : forall {E St} (su : set_up E St) c scheme mode,
  map fst (su_arrs _ _ su) = arr_keys c scheme (su_order _ _ su) ->
  map fst (lists_of su) = (match c with multi_pseudospectral => list_keys mode (su_order _ _ su) | _ => [] end) ->
  well_named su.
Proof.
  intros E St su c scheme mode Ha Hl. unfold well_named.
  rewrite <- (map_map fst (fun k => String.append k "_list")), Ha, Hl. generalize (su_order _ _ su) as order. clear Ha Hl. intros order.
  destruct c.
  - cbn [map app arr_keys]. destruct (String.substring 0 2 scheme =? "hs")%string.
    + destruct (scheme =? "hsj_parab_mod")%string.
      * pose proof (mixed order (info_names ++ ["x"; "x_d"; "x_like_u"; "x_d_like_u"; "u"; "u_like_x"; "t"; "t_col"; "lam"]) [""; "_like_u"]
          ["x_c"; "x_d_c"; "u_c"; "t_c"; "lam_c"] ["_c"] [] [] ["u_j"] eq_refl eq_refl eq_refl eq_refl) as M.
        rewrite ders_nil in M. unfold info_names in *. cbn [app] in M |- *. exact M.
      * pose proof (mixed order (info_names ++ ["x"; "x_d"; "x_like_u"; "x_d_like_u"; "u"; "u_like_x"; "t"; "t_col"; "lam"]) [""; "_like_u"]
          ["x_c"; "x_d_c"; "u_c"; "t_c"; "lam_c"] ["_c"] [] [] [] eq_refl eq_refl eq_refl eq_refl) as M.
        rewrite ders_nil in M. unfold info_names in *. cbn [app] in M |- *. exact M.
    + pose proof (mixed order (info_names ++ ["x"; "x_d"; "x_like_u"; "x_d_like_u"; "u"; "u_like_x"; "t"; "t_col"; "lam"]) [""; "_like_u"]
          [] [] [] [] [] eq_refl eq_refl eq_refl eq_refl) as M.
      rewrite !ders_nil in M. unfold info_names in *. cbn [app] in M |- *. exact M.
  - cbn [map app arr_keys].
    pose proof (mixed order (info_names ++ ["x"; "x_node"; "x_like_u"; "x_d"; "x_d_node"; "x_d_like_u"; "u"; "t"; "t_node"; "t_col"; "tau"; "tau_node";
       "tau_col"; "lam"; "u_like_x"]) [""; "_node"; "_like_u"] [] [] [] [] [] eq_refl eq_refl eq_refl eq_refl) as M.
    rewrite ders_nil, !app_nil_r in M. exact M.
  - cbn [map app arr_keys].
    pose proof (mixed order (info_names ++ ["x"; "x_like_u"; "x_d"; "x_d_like_u"; "u"; "t"; "t_col"; "tau"; "tau_col"; "lam"; "u_like_x"])
       [""; "_like_u"] [] [] [] [] [] eq_refl eq_refl eq_refl eq_refl) as M.
    rewrite ders_nil, !app_nil_r in M. exact M.
  - cbn [map app arr_keys].
    pose proof (mixed order (info_names ++ ["x"; "x_like_u"; "x_d"; "x_d_like_u"; "u"; "t"; "t_col"; "tau"; "tau_col"; "lam"; "q_constr"; "u_like_x"])
       [""; "_like_u"] [] [] [] [] [] eq_refl eq_refl eq_refl eq_refl) as M.
    rewrite ders_nil, !app_nil_r in M. exact M.
  - unfold list_keys. rewrite !map_app, map_ders. cbn [arr_keys].
    destruct (mode =? "ph top-down pseudospectral")%string.
    + pose proof (mixed order (info_names ++ map (fun k => String.append k "_list") ["x_col"; "x_knot"; "x_knot_ext"; "x_d_col"; "x_d_knot"; "x_d_knot_ext"; "u_col"; "u_knot"; "u_knot_ext"; "t_col";
   "tau_col"; "t_col_since_knot"]) ["_col_list"; "_knot_list"; "_knot_ext_list"] 
        ["q_constr_list"; "t_constr_list"; "x"; "x_like_u"; "x_d"; "x_d_like_u"; "u"; "u_like_x"; "t"; "t_col"; "tau_col"; "t_knot"; "t_knot_ext"; "lam"] [""; "_like_u"] [] [] [] eq_refl eq_refl eq_refl eq_refl) as M.
      rewrite ders_nil, !app_nil_r in M. rewrite <- !app_assoc in *. exact M.
    + pose proof (mixed order (info_names ++ map (fun k => String.append k "_list") ["x_col"; "x_knot"; "x_knot_ext"; "x_d_col"; "x_d_knot"; "x_d_knot_ext"; "u_col"; "u_knot"; "u_knot_ext"; "t_col";
   "tau_col"; "t_col_since_knot"]) ["_col_list"; "_knot_list"; "_knot_ext_list"] 
        ["x"; "x_like_u"; "x_d"; "x_d_like_u"; "u"; "u_like_x"; "t"; "t_col"; "tau_col"; "t_knot"; "t_knot_ext"; "lam"] [""; "_like_u"] [] [] [] eq_refl eq_refl eq_refl eq_refl) as M.
      rewrite ders_nil, !app_nil_r in M. rewrite <- !app_assoc in *. exact M.
Qed.

(** ** The scheme of the results *)
Lemma scheme_name : forall f base s, names false f base s -> scheme_entry (mode_of false f) base = s.
Proof. intros f base s [Hb ->]. destruct f; reflexivity. Qed.
Lemma scheme_name_ph : forall f base, scheme_entry (mode_of true f) base = base.
Proof. intros f base. destruct f; reflexivity. Qed.
Lemma mode_inj : forall ph f ph' f', mode_of ph f = mode_of ph' f' -> ph = ph' /\ f = f'.
Proof. intros [] [] [] []; cbn; intros H; try discriminate; split; reflexivity. Qed.
Lemma entries_name : forall ph f base s ph' f' base' s', names ph f base s -> names ph' f' base' s' ->
  mode_of ph f = mode_of ph' f' -> scheme_entry (mode_of ph f) base = scheme_entry (mode_of ph' f') base' -> s = s'.
Proof.
  intros ph f base s ph' f' base' s' N N' Hm He. destruct (mode_inj _ _ _ _ Hm) as [<- <-].
  destruct ph.
  - rewrite !scheme_name_ph in He. subst base'. destruct N as [_ ->], N' as [_ ->]. reflexivity.
  - rewrite (scheme_name _ _ _ N), (scheme_name _ _ _ N') in He. exact He.
Qed.

Section Stored.
Context {E V Sol St : Type}.
Variable opti_solve : St -> St * R * Res Sol.
Variable sol_value : Sol -> E -> Res V.
Variable opti_stats : St -> V.
Variable iter_count : V -> Res V.
Notation problem := (solve_problem E V Sol St).
Notation sound := (sound opti_solve sol_value opti_stats iter_count).
Notation call_solve := (call_solve E V Sol St opti_solve sol_value opti_stats iter_count).

Lemma made : forall LM s g op, Opti_Problem LM s g = Ok op -> exists ph f base, names ph f base s /\
  op_scheme_mode op = mode_of ph f /\ op_scheme op = base.
Proof.
  intros LM s g op H. destruct (in_dec (fun a b => string_dec a b) g guess_names) as [Hg|Hg];
    [|rewrite (dispatch_reject LM s g (or_intror Hg)) in H; discriminate].
  destruct (named s) as [(ph & f & base & N)|Hno].
  - exists ph, f, base. split; [exact N|].
    destruct (dispatch_ok LM ph f base s g N Hg) as (p & Hp & _ & A & B). rewrite Hp in H. injection H as <-. split; assumption.
  - exfalso. rewrite Opti_ini, Opti_LM, Hno in H. destruct (ini_of g); discriminate.
Qed.

Lemma scheme_stored : forall LM s g op (p : problem) c p', Opti_Problem LM s g = Ok op ->
  sp_mode _ _ _ _ p = op_scheme_mode op -> sp_scheme _ _ _ _ p = op_scheme op -> sound p -> head3 s <> "ph_" ->
  call_solve p c = (p', Ok tt) ->
  exists r, sp_results _ _ _ _ p' = Some r /\ dget V "scheme" r = Some (E_str V s).
Proof.
  intros LM s g op p c p' Ho Hm Hs Hsd Hph Hc. destruct (stored_entry _ _ _ _ p c p' Hsd Hc) as (r & Hr & He).
  exists r. split; [exact Hr|]. rewrite He, Hm, Hs. destruct (made _ _ _ _ Ho) as (ph & f & base & N & -> & ->).
  destruct ph; [exfalso; apply Hph; destruct N as [_ ->]; cbn; destruct (family_prefix f ++ base)%string; reflexivity|].
  rewrite (scheme_name _ _ _ N). reflexivity.
Qed.
Lemma scheme_stored_ph : forall LM f base s g op (p : problem) c p', names true f base s ->
  Opti_Problem LM s g = Ok op -> sp_mode _ _ _ _ p = op_scheme_mode op -> sp_scheme _ _ _ _ p = op_scheme op -> sound p ->
  call_solve p c = (p', Ok tt) ->
  exists r, sp_results _ _ _ _ p' = Some r /\ dget V "scheme" r = Some (E_str V base).
Proof.
  intros LM f base s g op p c p' N Ho Hm Hs Hsd Hc. destruct (stored_entry _ _ _ _ p c p' Hsd Hc) as (r & Hr & He).
  exists r. split; [exact Hr|]. rewrite He, Hm, Hs. destruct (made _ _ _ _ Ho) as (ph & f' & base' & N' & -> & ->).
  destruct (dispatch_unique _ _ _ _ _ _ _ N N') as (<- & <- & <-). rewrite scheme_name_ph. reflexivity.
Qed.
End Stored.
