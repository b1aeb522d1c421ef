From Coq Require Import String Ascii Permutation.
From Verif Require Import Prelude PreludeFacts Mat PwInterpModel SymModel SymSpec SymProofs FuncDynModel FuncDynSpec CasModel CasSpec CasProofs CasRhsProofs
  CasNameProofs CasDynProofs NumSymModel NumSymProofs PrintModel PrintSpec.
From Verif Require NumpyModel.
Open Scope R_scope.
Open Scope list_scope.

(** ** Text *)
Lemma sapp_nil s : (s ++ "")%string = s.
Proof. induction s as [|c s IH]; cbn; congruence. Qed.
Lemma sapp_assoc a b c : (a ++ b ++ c)%string = ((a ++ b) ++ c)%string.
Proof. induction a as [|x a IH]; cbn; congruence. Qed.
Lemma concat_cons s l : String.concat "" (s :: l) = (s ++ String.concat "" l)%string.
Proof. destruct l; cbn [String.concat]; [now rewrite sapp_nil|reflexivity]. Qed.
Lemma concat_app l m : String.concat "" (l ++ m) = (String.concat "" l ++ String.concat "" m)%string.
Proof. induction l as [|s l IH]; [reflexivity|]. cbn [app]. rewrite !concat_cons, IH. apply sapp_assoc. Qed.
Lemma appends_text printer l : String.concat "" (map (line_text printer) (map L_append l)) = appends printer l.
Proof.
  unfold appends. rewrite map_map. f_equal. apply map_ext. intros e. cbn [line_text]. now rewrite !sapp_assoc.
Qed.

(** ** Variables *)
Lemma get_other n m v e : n <> m -> get n ((m, v) :: e) = get n e.
Proof. intros H. cbn [get]. destruct (String.eqb_spec n m); congruence. Qed.
Lemma get_same n v e : get n ((n, v) :: e) = Ok v.
Proof. cbn [get]. now rewrite String.eqb_refl. Qed.

Definition all_static (l : list atom) : Prop := forall a, In a l -> exists n, a = Static n.
Lemma static_name a l n : all_static l -> In a l -> target_name a = n -> a = Static n.
Proof. intros S I <-. destruct (S a I) as [m ->]. reflexivity. Qed.
Lemma assign_all_ok val targets : forall e, NoDup targets -> all_static targets ->
  exists e', assign_all targets (map V_num (map val targets)) e = Ok e' /\
    (forall a, In a targets -> get (target_name a) e' = Ok (V_num (val a))) /\
    (forall n, ~ In (Static n) targets -> get n e' = get n e).
Proof.
  induction targets as [|a targets IH]; intros e N S; [exists e; split; [reflexivity|]; split; [intros a []|auto]|].
  inversion N as [|? ? N1 N2]; subst. assert (S' : all_static targets) by (intros b Hb; apply S; now right).
  destruct (S a (or_introl eq_refl)) as [m ->]. cbn [map assign_all target_name].
  destruct (IH ((m, V_num (val (Static m))) :: e) N2 S') as (e' & E & G & O). exists e'. split; [exact E|]. split.
  - intros b [<-|Hb]; [cbn [target_name]; rewrite O by auto; apply get_same|auto].
  - intros n Hn. cbn [In] in Hn. rewrite O by tauto. apply get_other. intros ->. tauto.
Qed.
Lemma assign_ok val targets e : NoDup targets -> all_static targets ->
  exists e', assign targets (alone (map val targets)) e = Ok e' /\
    (forall a, In a targets -> get (target_name a) e' = Ok (V_num (val a))) /\
    (forall n, ~ In (Static n) targets -> get n e' = get n e).
Proof.
  intros N S. destruct targets as [|a [|b targets]].
  - exists e. split; [reflexivity|]. split; [intros a []|auto].
  - destruct (S a (or_introl eq_refl)) as [m ->]. cbn [map alone assign target_name]. eexists. split; [reflexivity|]. split.
    + intros b [<-|[]]. apply get_same.
    + intros n Hn. apply get_other. intros ->. cbn in Hn. tauto.
  - destruct (assign_all_ok val (a :: b :: targets) e N S) as (e' & E & G & O). exists e'. split; [exact E|auto].
Qed.
Lemma unpack_numbers v : unpack_val (numbers v) = Ok (numbers v).
Proof.
  unfold unpack_val, numbers. assert (E : mapm is_num (map V_num v) = Ok v).
  { induction v as [|x v IH]; [reflexivity|]. cbn [map mapm is_num rbind]. rewrite IH. reflexivity. }
  rewrite E. reflexivity.
Qed.
Lemma alone_numbers v : length v <> 1%nat -> alone v = numbers v.
Proof. destruct v as [|x [|y v]]; cbn [length]; intros H; try reflexivity. congruence. Qed.

(** ** Expressions *)
Definition knows (e : env) (l : list atom) (val : atom -> R) : Prop :=
  forall a, In a l -> exists n, a = Static n /\ get n e = Ok (V_num (val a)).
Lemma expr_ok m e val x : bound m e = false -> knows e (atoms x) val -> expr_val m e x = Ok (V_num (eval val x)).
Proof.
  intros B. induction x as [r|a|x1 IH1 x2 IH2|x1 IH1 x2 IH2|f k x IH]; cbn [atoms expr_val eval]; intros K.
  - reflexivity.
  - destruct (K a (or_introl eq_refl)) as (n & -> & G). exact G.
  - rewrite IH1, IH2 by (intros a Ha; apply K, in_app_iff; auto). reflexivity.
  - rewrite IH1, IH2 by (intros a Ha; apply K, in_app_iff; auto). reflexivity.
  - rewrite B, IH by auto. reflexivity.
Qed.
Lemma bound_get n e e' : get n e = get n e' -> bound n e = bound n e'.
Proof. unfold bound. now intros ->. Qed.
Lemma appends_ok m val l names : ~ In (Static "result") names -> (forall x, In x l -> incl (atoms x) names) -> m <> "result"%string ->
  forall e vs, bound m e = false -> knows e names val -> get "result" e = Ok (V_list vs) ->
  exists e', run m (map L_append l) e = Ok e' /\ get "result" e' = Ok (V_list (vs ++ map V_num (map (eval val) l))).
Proof.
  intros NR HI MR. induction l as [|x l IH]; intros e vs B K G; [exists e; split; [reflexivity|]; cbn; now rewrite app_nil_r|].
  cbn [map run step]. rewrite (expr_ok m e val x B); [|intros a Ha; apply K, (HI x); [now left|auto]].
  cbn [rbind]. rewrite G. cbn [rbind].
  destruct (IH (fun y Hy => HI y (or_intror Hy)) (("result"%string, V_list (vs ++ [V_num (eval val x)])) :: e) (vs ++ [V_num (eval val x)])) as (e' & E & G').
  - transitivity (bound m e); [|exact B]. apply bound_get. now apply get_other.
  - intros a Ha. destruct (K a Ha) as (n & -> & Gn). exists n. split; [reflexivity|]. rewrite get_other; [exact Gn|]. intros ->. auto.
  - apply get_same.
  - exists e'. split; [exact E|]. rewrite G'. cbn [map]. rewrite <- app_assoc. reflexivity.
Qed.

Lemma identifier_module n flavour : identifier n = true -> module_of flavour = ""%string -> n <> module_of flavour.
Proof. intros H E ->. rewrite E in H. discriminate. Qed.
Lemma module_other flavour : ~ In (module_of flavour) ["x"; "u"; "params"; "unpack"; "result"]%string.
Proof.
  unfold module_of. destruct (flavour =? "numpy")%string; [|destruct (flavour =? "np")%string; [|destruct (flavour =? "casadi")%string]];
    cbn [In]; intuition discriminate.
Qed.

Lemma get_map e names val : knows e names val -> mapm (fun a => get (target_name a) e) names = Ok (map V_num (map val names)).
Proof.
  induction names as [|a names IH]; intros K; [reflexivity|]. cbn [mapm map]. destruct (K a (or_introl eq_refl)) as (n & -> & G).
  cbn [target_name]. rewrite G. cbn [rbind]. rewrite IH by (intros b Hb; apply K; now right). reflexivity.
Qed.
Lemma nodup_app_l {A} (l m : list A) : NoDup (l ++ m) -> NoDup l.
Proof. induction l as [|a l IH]; intros H; [constructor|]. inversion H; subst. constructor; [rewrite in_app_iff in *; tauto|auto]. Qed.
Lemma nodup_app_r {A} (l m : list A) : NoDup (l ++ m) -> NoDup m.
Proof. induction l as [|a l IH]; intros H; [auto|]. inversion H; subst. auto. Qed.
Lemma nodup_app_d {A} (l m : list A) a : NoDup (l ++ m) -> In a l -> ~ In a m.
Proof. induction l as [|b l IH]; intros H; [intros []|]. inversion H; subst. intros [<-|Ha]; [rewrite in_app_iff in *; tauto|auto]. Qed.

Section Names.
  Variables (r : arguments) (flavour : string).
  Hypothesis GN : good_names r flavour.
  Notation xs := (r_q r ++ r_v r).
  Notation ps := (map Static (r_params r)).
  Notation names := (r_q r ++ r_v r ++ r_u r ++ ps).

  Lemma g_static l : incl l names -> all_static l.
  Proof. intros I a Ha. destruct GN as [_ G]. destruct (G a (I a Ha)) as (n & -> & _). eauto. Qed.
  Lemma g_nodup : NoDup xs /\ NoDup (r_u r) /\ NoDup ps.
  Proof.
    destruct GN as [N _]. rewrite app_assoc in N. split; [eapply nodup_app_l; eauto|]. apply nodup_app_r in N.
    split; [eapply nodup_app_l; eauto|eapply nodup_app_r; eauto].
  Qed.
  Lemma g_targets l : incl l names -> forallb target_ok l = true.
  Proof. intros I. apply forallb_forall. intros a Ha. destruct GN as [_ G]. destruct (G a (I a Ha)) as (n & -> & H & _). exact H. Qed.
  Lemma g_not n : In n ["u"; "params"; "unpack"; "result"; module_of flavour]%string -> ~ In (Static n) names.
  Proof. intros H I. destruct GN as [_ G]. destruct (G _ I) as (m & E & _ & K). injection E as <-. auto. Qed.
  Lemma xs_in : incl xs names. Proof. intros a. rewrite !in_app_iff. tauto. Qed.
  Lemma us_in : incl (r_u r) names. Proof. intros a. rewrite !in_app_iff. tauto. Qed.
  Lemma ps_in : incl ps names. Proof. intros a. rewrite !in_app_iff. tauto. Qed.
  Lemma not_in l n : incl l names -> In n ["u"; "params"; "unpack"; "result"; module_of flavour]%string -> ~ In (Static n) l.
  Proof. intros I H K. apply (g_not n H). auto. Qed.

  (** Assigning the groups one after the other. *)
  Lemma knows_step e e' l l' val : knows e l val -> (forall a, In a l -> In a names) -> NoDup (l ++ l') -> incl l' names ->
    (forall a, In a l' -> get (target_name a) e' = Ok (V_num (val a))) -> (forall n, ~ In (Static n) l' -> get n e' = get n e) ->
    knows e' (l ++ l') val.
  Proof.
    intros K I N I' G O a Ha. apply in_app_iff in Ha. destruct Ha as [Ha|Ha].
    - destruct (K a Ha) as (n & -> & Gn). exists n. split; [reflexivity|]. rewrite O; [exact Gn|]. eapply nodup_app_d; eauto.
    - destruct (g_static l' I' a Ha) as [n ->]. exists n. split; [reflexivity|]. exact (G _ Ha).
  Qed.
  Lemma knows_incl e l l' val : knows e l val -> incl l' l -> knows e l' val.
  Proof. intros K I a Ha. apply K. auto. Qed.
End Names.

Section Call.
  Variables (r : arguments) (flavour : string) (l : list expr) (val : atom -> R).
  Notation xs := (r_q r ++ r_v r).
  Notation ps := (map Static (r_params r)).
  Notation names := (r_q r ++ r_v r ++ r_u r ++ ps).
  Hypothesis GN : good_names r flavour.
  Hypothesis HL : forall x, In x l -> incl (atoms x) names.

  Lemma rhs_call_ok : length (r_v r) = length (r_q r) -> r_q r <> [] -> (2 <= length (r_u r))%nat -> r_params r <> [] ->
    call (rhs_program r l flavour) [numbers (map val xs); numbers (map val (r_u r)); alone (map val ps)]
    = Ok (numbers (map val (r_v r) ++ map (eval val) l)).
  Proof.
    intros LV NQ HU NP. unfold call, rhs_program. cbn [p_lines p_args p_module length Nat.eqb negb].
    destruct (g_nodup _ _ GN) as (N1 & N2 & N3).
    assert (L0 : length xs <> 1%nat) by (rewrite app_length; lia).
    assert (Lx : length xs <> 0%nat) by (rewrite app_length; destruct (r_q r); [congruence|cbn; lia]).
    assert (Lv : length (r_v r) <> 0%nat) by (destruct (r_q r); [congruence|cbn in LV; lia]).
    assert (Lp : length ps <> 0%nat) by (rewrite map_length; destruct (r_params r); [congruence|cbn; lia]).
    replace (forallb line_ok _) with true.
    2:{ symmetry. rewrite forallb_app. cbn [forallb line_ok source_ok].
        rewrite (g_targets _ _ GN _ (xs_in r)), (g_targets _ _ GN _ (us_in r)), (g_targets _ _ GN _ (ps_in r)).
        rewrite (g_targets _ _ GN (r_v r)) by (intros a Ha; rewrite !in_app_iff; auto).
        rewrite (proj2 (Nat.eqb_neq _ _) Lx), (proj2 (Nat.eqb_neq _ _) Lp), (proj2 (Nat.eqb_neq _ _) Lv).
        rewrite (proj2 (Nat.eqb_neq (length (r_u r)) 0)) by lia. cbn [negb andb].
        rewrite andb_true_intro; [reflexivity|split; [reflexivity|]].
        clear. induction l as [|x l' IH]; [reflexivity|exact IH]. }
    cbn [negb]. set (e0 := combine _ _).
    cbn [app run step source_val].
    replace (bound "unpack" e0) with false by reflexivity.
    replace (get "x" e0) with (Ok (numbers (map val xs))) by reflexivity. cbn [rbind].
    rewrite unpack_numbers. cbn [rbind]. rewrite <- (alone_numbers (map val xs)) by now rewrite map_length.
    destruct (assign_ok val xs e0 N1 (g_static _ _ GN _ (xs_in r))) as (e1 & -> & G1 & O1). cbn [rbind].
    assert (B1 : bound "unpack" e1 = false).
    { rewrite (bound_get "unpack" e1 e0); [reflexivity|]. apply O1, (not_in _ _ GN _ _ (xs_in r)). cbn; tauto. }
    rewrite B1. rewrite (O1 "u"%string) by (apply (not_in _ _ GN _ _ (xs_in r)); cbn; tauto).
    replace (get "u" e0) with (Ok (numbers (map val (r_u r)))) by reflexivity. cbn [rbind].
    rewrite unpack_numbers. cbn [rbind]. rewrite <- (alone_numbers (map val (r_u r))) by (rewrite map_length; lia).
    destruct (assign_ok val (r_u r) e1 N2 (g_static _ _ GN _ (us_in r))) as (e2 & -> & G2 & O2). cbn [rbind].
    rewrite (O2 "params"%string) by (apply (not_in _ _ GN _ _ (us_in r)); cbn; tauto).
    rewrite (O1 "params"%string) by (apply (not_in _ _ GN _ _ (xs_in r)); cbn; tauto).
    replace (get "params" e0) with (Ok (alone (map val ps))) by reflexivity. cbn [rbind].
    destruct (assign_ok val ps e2 N3 (g_static _ _ GN _ (ps_in r))) as (e3 & -> & G3 & O3). cbn [rbind].
    assert (ND : NoDup names) by apply GN.
    assert (K1 : knows e1 xs val).
    { intros a Ha. destruct (g_static _ _ GN _ (xs_in r) a Ha) as [n ->]. exists n. split; [reflexivity|]. exact (G1 _ Ha). }
    assert (K2 : knows e2 (xs ++ r_u r) val).
    { apply (knows_step r flavour GN e1 e2); auto; [apply xs_in| |apply us_in]. rewrite app_assoc in ND. rewrite app_assoc in ND. now apply nodup_app_l in ND. }
    assert (K3 : knows e3 ((xs ++ r_u r) ++ ps) val).
    { apply (knows_step r flavour GN e2 e3); auto; [|rewrite <- !app_assoc; exact ND|apply ps_in]. intros a. rewrite !in_app_iff. tauto. }
    assert (K : knows e3 names val) by (eapply knows_incl; [exact K3|]; intros a; rewrite !in_app_iff; tauto).
    rewrite (get_map e3 (r_v r) val) by (eapply knows_incl; [exact K|]; intros a; rewrite !in_app_iff; tauto). cbn [rbind].
    pose proof (module_other flavour) as MO.
    assert (M0 : forall n, In n ["x"; "u"; "params"; "unpack"; "result"]%string -> module_of flavour <> n) by (intros n Hn E; apply MO; now rewrite E).
    assert (B3 : bound (module_of flavour) e3 = false).
    { rewrite (bound_get _ e3 e0).
      - unfold bound. subst e0. cbn [combine]. rewrite !get_other by (apply M0; cbn; tauto). reflexivity.
      - rewrite O3 by (apply (not_in _ _ GN _ _ (ps_in r)); cbn; tauto). rewrite O2 by (apply (not_in _ _ GN _ _ (us_in r)); cbn; tauto).
        apply O1, (not_in _ _ GN _ _ (xs_in r)). cbn; tauto. }
    destruct (appends_ok (module_of flavour) val l names) with (e := (("result"%string, V_list (map V_num (map val (r_v r)))) :: e3)) (vs := map V_num (map val (r_v r))) as (e' & E & G).
    - apply (g_not _ _ GN). cbn; tauto.
    - exact HL.
    - apply M0. cbn; tauto.
    - transitivity (bound (module_of flavour) e3); [|exact B3]. apply bound_get, get_other, M0. cbn; tauto.
    - intros a Ha. destruct (K a Ha) as (n & -> & Gn). exists n. split; [reflexivity|]. rewrite get_other; [exact Gn|]. intros ->.
      apply (g_not _ _ GN "result"); [cbn; tauto|exact Ha].
    - apply get_same.
    - rewrite E. cbn [rbind]. rewrite G. unfold numbers. now rewrite map_app.
  Qed.

  (** An empty group is not python. *)
  Lemma rhs_call_syntax : r_v r = [] \/ r_u r = [] \/ r_params r = [] -> forall vals, call (rhs_program r l flavour) vals = Err SyntaxError.
  Proof.
    clear. intros H vals. unfold call, rhs_program. cbn [p_lines]. rewrite forallb_app. cbn [forallb line_ok].
    destruct H as [H|[H|H]]; rewrite H; cbn [length map Nat.eqb negb andb]; rewrite ?andb_false_r; reflexivity.
  Qed.

  Lemma exprs_call_ok : length (r_v r) = length (r_q r) -> length (r_u r) <> 1%nat ->
    let groups := (match xs with [] => [] | _ => [numbers (map val xs)] end) ++ (match r_u r with [] => [] | _ => [numbers (map val (r_u r))] end) ++
      (match ps with [] => [] | _ => [alone (map val ps)] end) in
    call (exprs_program r l flavour) groups = Ok (match l with [e] => V_num (eval val e) | _ => numbers (map (eval val) l) end).
  Proof.
    intros LV HU groups. unfold call, exprs_program. cbn [p_lines p_args p_module].
    destruct (g_nodup _ _ GN) as (N1 & N2 & N3).
    assert (L0 : length xs <> 1%nat) by (rewrite app_length; lia).
    set (gs := group xs "x" (Unpack "x") ++ group (r_u r) "u" (Unpack "u") ++ group ps "params" (Name "params")).
    assert (OKG : forall g n s, incl g names -> source_ok s = true -> forallb line_ok (map snd (group g n s)) = true).
    { intros g n s I Hs. destruct g as [|a g]; [reflexivity|]. change (line_ok (L_assign (a :: g) s) && true = true)%bool. rewrite andb_true_r. unfold line_ok. rewrite (g_targets _ _ GN _ I), Hs. reflexivity. }
    replace (forallb line_ok _) with true.
    2:{ symmetry. rewrite forallb_app. subst gs. rewrite !map_app, !forallb_app.
        rewrite !OKG; try apply xs_in; try apply us_in; try apply ps_in; try reflexivity. cbn [andb].
        assert (A : forallb line_ok (map L_append l) = true) by (clear; induction l as [|x l' IH]; [reflexivity|exact IH]).
        destruct l as [|x [|y l']]; [reflexivity|reflexivity|exact A]. }
    cbn [negb].
    replace (length groups =? length (map fst gs))%nat with true.
    2:{ symmetry. apply Nat.eqb_eq. subst groups gs. rewrite map_length, !app_length. destruct xs, (r_u r), ps; reflexivity. }
    cbn [negb]. set (e0 := combine (map fst gs) groups).
    assert (RA : forall ls ls' e, run (module_of flavour) (ls ++ ls') e = do e' <- run (module_of flavour) ls e; run (module_of flavour) ls' e').
    { induction ls as [|x ls IH]; intros ls' e; [reflexivity|]. cbn [app run]. destruct (step _ x e); cbn [rbind]; auto. }
    rewrite RA. subst gs. rewrite !map_app, !RA.
    assert (GB : forall n, ~ In n ["x"; "u"; "params"]%string -> get n e0 = Err NameError).
    { intros n Hn. assert (A : n <> "x"%string /\ n <> "u"%string /\ n <> "params"%string) by (cbn in Hn; repeat split; intros ->; tauto).
      destruct A as (A1 & A2 & A3). subst e0 groups. unfold group.
      destruct xs; destruct (r_u r); destruct ps; cbn [map fst app combine]; rewrite ?get_other by auto; reflexivity. }
    assert (GX : xs <> [] -> get "x" e0 = Ok (numbers (map val xs))).
    { intros Hx. subst e0 groups. destruct xs; [congruence|]. reflexivity. }
    assert (GU : r_u r <> [] -> get "u" e0 = Ok (numbers (map val (r_u r)))).
    { intros Hx. subst e0 groups. unfold group. destruct (r_u r); [congruence|]. destruct xs; reflexivity. }
    assert (GP : ps <> [] -> get "params" e0 = Ok (alone (map val ps))).
    { intros Hx. subst e0 groups. unfold group. destruct ps; [congruence|]. destruct xs; destruct (r_u r); reflexivity. }
    clearbody e0. clear groups.
    assert (S1 : exists e1, run (module_of flavour) (map snd (group xs "x" (Unpack "x"))) e0 = Ok e1 /\
      (forall a, In a xs -> get (target_name a) e1 = Ok (V_num (val a))) /\ (forall n, ~ In (Static n) xs -> get n e1 = get n e0)).
    { destruct xs as [|a xs'] eqn:EX; [exists e0; split; [reflexivity|]; split; [intros b []|auto]|]. rewrite <- EX in *.
      assert (EG : group xs "x" (Unpack "x") = [("x"%string, L_assign xs (Unpack "x"))]) by (rewrite EX; reflexivity).
      rewrite EG. cbn [map snd run step source_val]. unfold bound. rewrite (GB "unpack"%string) by (cbn; intuition discriminate).
      rewrite GX by congruence. cbn [rbind]. rewrite unpack_numbers. cbn [rbind]. rewrite <- (alone_numbers (map val xs)) by now rewrite map_length.
      destruct (assign_ok val xs e0 N1 (g_static _ _ GN _ (xs_in r))) as (e1 & -> & G1 & O1). cbn [rbind]. eauto. }
    destruct S1 as (e1 & -> & G1 & O1). cbn [rbind]. rewrite RA.
    assert (S2 : exists e2, run (module_of flavour) (map snd (group (r_u r) "u" (Unpack "u"))) e1 = Ok e2 /\
      (forall a, In a (r_u r) -> get (target_name a) e2 = Ok (V_num (val a))) /\ (forall n, ~ In (Static n) (r_u r) -> get n e2 = get n e1)).
    { destruct (r_u r) as [|a us'] eqn:EX; [exists e1; split; [reflexivity|]; split; [intros b []|auto]|]. rewrite <- EX in *.
      assert (EG : group (r_u r) "u" (Unpack "u") = [("u"%string, L_assign (r_u r) (Unpack "u"))]) by (rewrite EX; reflexivity).
      rewrite EG. cbn [map snd run step source_val]. unfold bound.
      rewrite (O1 "unpack"%string) by (apply (not_in _ _ GN _ _ (xs_in r)); cbn; tauto). rewrite (GB "unpack"%string) by (cbn; intuition discriminate).
      rewrite (O1 "u"%string) by (apply (not_in _ _ GN _ _ (xs_in r)); cbn; tauto).
      rewrite GU by congruence. cbn [rbind]. rewrite unpack_numbers. cbn [rbind]. rewrite <- (alone_numbers (map val (r_u r))) by now rewrite map_length.
      destruct (assign_ok val (r_u r) e1 N2 (g_static _ _ GN _ (us_in r))) as (e2 & -> & G2 & O2). cbn [rbind]. eauto. }
    destruct S2 as (e2 & -> & G2 & O2). cbn [rbind].
    assert (S3 : exists e3, run (module_of flavour) (map snd (group ps "params" (Name "params"))) e2 = Ok e3 /\
      (forall a, In a ps -> get (target_name a) e3 = Ok (V_num (val a))) /\ (forall n, ~ In (Static n) ps -> get n e3 = get n e2)).
    { destruct ps as [|a ps'] eqn:EX; [exists e2; split; [reflexivity|]; split; [intros b []|auto]|]. rewrite <- EX in *.
      assert (EG : group ps "params" (Name "params") = [("params"%string, L_assign ps (Name "params"))]) by (rewrite EX; reflexivity).
      rewrite EG. cbn [map snd run step source_val].
      rewrite (O2 "params"%string) by (apply (not_in _ _ GN _ _ (us_in r)); cbn; tauto).
      rewrite (O1 "params"%string) by (apply (not_in _ _ GN _ _ (xs_in r)); cbn; tauto).
      rewrite GP by congruence. cbn [rbind].
      destruct (assign_ok val ps e2 N3 (g_static _ _ GN _ (ps_in r))) as (e3 & -> & G3 & O3). cbn [rbind]. eauto. }
    destruct S3 as (e3 & -> & G3 & O3). cbn [rbind].
    assert (ND : NoDup names) by apply GN.
    assert (K1 : knows e1 xs val).
    { intros a Ha. destruct (g_static _ _ GN _ (xs_in r) a Ha) as [n ->]. exists n. split; [reflexivity|]. exact (G1 _ Ha). }
    assert (K2 : knows e2 (xs ++ r_u r) val).
    { apply (knows_step r flavour GN e1 e2); auto; [apply xs_in| |apply us_in]. rewrite app_assoc in ND. rewrite app_assoc in ND. now apply nodup_app_l in ND. }
    assert (K3 : knows e3 ((xs ++ r_u r) ++ ps) val).
    { apply (knows_step r flavour GN e2 e3); auto; [|rewrite <- !app_assoc; exact ND|apply ps_in]. intros a. rewrite !in_app_iff. tauto. }
    assert (K : knows e3 names val) by (eapply knows_incl; [exact K3|]; intros a; rewrite !in_app_iff; tauto).
    pose proof (module_other flavour) as MO.
    assert (M0 : forall n, In n ["x"; "u"; "params"; "unpack"; "result"]%string -> module_of flavour <> n) by (intros n Hn E; apply MO; now rewrite E).
    assert (B3 : bound (module_of flavour) e3 = false).
    { rewrite (bound_get _ e3 e0).
      - unfold bound. rewrite GB; [reflexivity|]. intros K'. apply MO. cbn in *. tauto.
      - rewrite O3 by (apply (not_in _ _ GN _ _ (ps_in r)); cbn; tauto). rewrite O2 by (apply (not_in _ _ GN _ _ (us_in r)); cbn; tauto).
        apply O1, (not_in _ _ GN _ _ (xs_in r)). cbn; tauto. }
    assert (AP : exists e', run (module_of flavour) (L_empty :: map L_append l) e3 = Ok e' /\ get "result" e' = Ok (V_list (map V_num (map (eval val) l)))).
    { cbn [run step rbind].
      destruct (appends_ok (module_of flavour) val l names) with (e := (("result"%string, V_list []) :: e3)) (vs := @nil pyval) as (e' & E & G).
      - apply (g_not _ _ GN). cbn; tauto.
      - exact HL.
      - apply M0. cbn; tauto.
      - transitivity (bound (module_of flavour) e3); [|exact B3]. apply bound_get, get_other, M0. cbn; tauto.
      - intros a Ha. destruct (K a Ha) as (n & -> & Gn). exists n. split; [reflexivity|]. rewrite get_other; [exact Gn|]. intros ->.
        apply (g_not _ _ GN "result"); [cbn; tauto|exact Ha].
      - apply get_same.
      - exists e'. split; [exact E|exact G]. }
    destruct AP as (e' & E & G).
    destruct l as [|x [|y l']] eqn:EL.
    - rewrite E. cbn [rbind]. exact G.
    - cbn [run step]. rewrite (expr_ok (module_of flavour) e3 val x B3); [|intros a Ha; apply K, (HL x); [now left|auto]].
      cbn [rbind]. apply get_same.
    - rewrite E. cbn [rbind]. exact G.
  Qed.
End Call.
