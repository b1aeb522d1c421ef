From Coq Require Import String Ascii Permutation.
From Verif Require Import Prelude PwInterpModel SymModel SymSpec SymProofs PlotModel PlotSpec PlotNameProofs FuncDynModel FuncDynSpec CasModel CasSpec CasProofs CasRhsProofs.
Open Scope R_scope.
Open Scope list_scope.

(** ** Numbered names *)
Lemma contains_lacks s : SymSpec.contains "_dot" s -> ~ lacks "d"%char s.
Proof.
  intros (a & b & ->) L. apply lacks_app in L. destruct L as [_ L]. cbn in L. tauto.
Qed.
Lemma clean_numbered c i : c = "u"%string \/ c = "q"%string \/ c = "x"%string -> clean_name (c ++ "_" ++ str_nat i).
Proof.
  intros Hc. assert (L : lacks "d"%char (c ++ "_" ++ str_nat i)).
  { apply lacks_app; split; [destruct Hc as [->|[->| ->]]; cbn; intuition discriminate|]. cbn. split; [discriminate|]. apply str_nat_lacks, no_digit_check. reflexivity. }
  destruct Hc as [->|[->| ->]]; (repeat split; try discriminate; try (intros [t E]; discriminate E); intros F; exact (contains_lacks _ F L)).
Qed.
Lemma numbered_static c n a : In a (numbered c n) -> exists s, a = Static s.
Proof. unfold numbered. rewrite in_map_iff. intros (i & <- & _). eauto. Qed.
Lemma numbered_nodup c n : NoDup (numbered c n).
Proof.
  unfold numbered. apply FinFun.Injective_map_NoDup; [|apply seq_NoDup]. intros i j E. injection E as E.
  apply app_inj_l in E. injection E as E. apply str_nat_inj; auto.
Qed.
Lemma nodup_app {A} (l m : list A) : NoDup l -> NoDup m -> disjoint l m -> NoDup (l ++ m).
Proof.
  induction 1 as [|a l Ha Hl IH]; intros Hm D; cbn; auto. constructor.
  - rewrite in_app_iff. intros [H|H]; [auto|]. apply (D a); cbn; auto.
  - apply IH; auto. intros x Hx. apply D; cbn; auto.
Qed.
Lemma sorted_nodup l : NoDup l -> NoDup (sorted l).
Proof. intros H. apply (Permutation_NoDup (sorted_perm l) H). Qed.
Lemma params_nodup sets Q U sl sa r : find_arguments sets Q U sl sa = Ok r -> NoDup (r_params r) /\ NoDup (r_lambdas r) /\ disjoint (r_params r) (r_lambdas r).
Proof.
  rewrite find_arguments_eq. intros H.
  destruct (q_groups Q) as [[[q v] a]|]; cbn [rbind] in H; [|discriminate].
  destruct (u_group sets U) as [u|]; cbn [rbind] in H; [|discriminate]. cbv zeta in H. set (f := all_found (q ++ v) u a sets) in *.
  assert (F : forall g s, In s (f_get g f) -> group_of (q ++ v) u a s = g).
  { intros g s Hs. unfold f in Hs. apply all_found_in in Hs. tauto. }
  assert (N : forall g, NoDup (f_get g f)) by (intros; apply all_found_nodup).
  injection H as <-. cbn [r_params r_lambdas]. split; [|split].
  - apply sorted_nodup, nodup_app; [apply nodup_app| |].
    + apply (N G_param).
    + destruct sl; [constructor|apply sorted_nodup, (N G_lambda)].
    + intros x Hx Hy. destruct sl; [destruct Hy|]. rewrite sorted_in in Hy. pose proof (F G_param x Hx). pose proof (F G_lambda x Hy). congruence.
    + destruct sa; [constructor|apply sorted_nodup, (N G_a)].
    + intros x Hx Hy. destruct sa; [destruct Hy|]. rewrite sorted_in in Hy. pose proof (F G_a x Hy). apply in_app_iff in Hx. destruct Hx as [Hx|Hx].
      * pose proof (F G_param x Hx). congruence.
      * destruct sl; [destruct Hx|]. rewrite sorted_in in Hx. pose proof (F G_lambda x Hx). congruence.
  - destruct sl; [apply sorted_nodup, (N G_lambda)|constructor].
  - intros x Hx Hy. destruct sl; [|destruct Hy]. rewrite sorted_in in Hx, Hy. pose proof (F G_lambda x Hy). rewrite !in_app_iff in Hx.
    destruct Hx as [[Hx|Hx]|Hx]; [pose proof (F G_param x Hx); congruence|destruct Hx|].
    destruct sa; [destruct Hx|]. rewrite sorted_in in Hx. pose proof (F G_a x Hx). congruence.
Qed.
(** Parameters and multipliers are none of the others. *)
Lemma rest_disjoint sets Q U sl sa r q v a u s : find_arguments sets Q U sl sa = Ok r -> q_groups Q = Ok (q, v, a) -> u_group sets U = Ok u ->
  In s (r_params r) \/ In s (r_lambdas r) -> ~ In (Static s) u /\ ~ In (Static s) q /\ ~ In (Static s) v /\ (sa = true -> ~ In (Static s) a).
Proof.
  intros H Hq Hu [Hs|Hs].
  - destruct (proj1 (find_arguments_params _ _ _ _ _ _ _ _ _ _ _ H Hq Hu) Hs) as (_ & A & B & C & D & _). auto.
  - rewrite find_arguments_eq, Hq, Hu in H. cbn [rbind] in H. cbv zeta in H. injection H as <-. cbn [r_lambdas] in Hs.
    destruct sl; [|destruct Hs]. rewrite sorted_in in Hs. apply (proj1 (all_found_in _ _ _ _ G_lambda s)) in Hs. destruct Hs as [_ G]. unfold group_of in G.
    destruct (in_dec atom_eq_dec (Static s) u); [discriminate|]. destruct (in_dec atom_eq_dec (Static s) (q ++ v)) as [I|I]; [discriminate|].
    destruct (in_dec atom_eq_dec (Static s) a); [discriminate|]. rewrite in_app_iff in I. tauto.
Qed.
Lemma r_u_incl sets Q U sl sa r u : find_arguments sets Q U sl sa = Ok r -> u_group sets U = Ok u -> incl (r_u r) u /\ (NoDup u -> NoDup (r_u r)).
Proof.
  rewrite find_arguments_eq. intros H Hu.
  destruct (q_groups Q) as [[[q v] a]|]; cbn [rbind] in H; [|discriminate]. rewrite Hu in H. cbn [rbind] in H. cbv zeta in H.
  injection H as <-. cbn [r_u]. destruct U; try (solve [split; [apply incl_refl|auto]]).
  split.
  - intros x Hx. apply in_map_iff in Hx. destruct Hx as (s & <- & Hs). rewrite sorted_in in Hs. apply (proj1 (all_found_in _ _ _ _ G_u s)) in Hs. destruct Hs as [_ G].
    unfold group_of in G. destruct (in_dec atom_eq_dec (Static s) u); auto.
    destruct (in_dec atom_eq_dec (Static s) (q ++ v)) as [I|I]; [discriminate|].
    destruct (in_dec atom_eq_dec (Static s) a); [discriminate|]. destruct (is_lambda s); discriminate.
  - intros _. apply FinFun.Injective_map_NoDup; [intros i j E; congruence|]. apply sorted_nodup, (all_found_nodup _ _ _ _ G_u).
Qed.
Lemma r_groups sets Q U sl sa r : find_arguments sets Q U sl sa = Ok r -> exists q v a u, q_groups Q = Ok (q, v, a) /\ u_group sets U = Ok u /\
  r_q r = q /\ r_v r = v /\ r_a r = (if sa then a else []).
Proof.
  rewrite find_arguments_eq. intros H.
  destruct (q_groups Q) as [[[q v] a]|]; cbn [rbind] in H; [|discriminate].
  destruct (u_group sets U) as [u|]; cbn [rbind] in H; [|discriminate]. cbv zeta in H. injection H as <-. exists q, v, a, u. auto.
Qed.
Theorem all_nodup sets Q U sl sa r : find_arguments sets Q U sl sa = Ok r ->
  (forall q v a, q_groups Q = Ok (q, v, a) -> NoDup (q ++ v ++ a)) ->
  (forall q v a u, q_groups Q = Ok (q, v, a) -> u_group sets U = Ok u -> NoDup u /\ disjoint u (q ++ v ++ a)) ->
  NoDup (r_q r ++ r_v r ++ r_a r ++ r_u r ++ map Static (r_lambdas r) ++ map Static (r_params r)).
Proof.
  intros H D1 D2. destruct (r_groups _ _ _ _ _ _ H) as (q & v & a & u & Hq & Hu & Eq & Ev & Ea).
  specialize (D1 _ _ _ Hq). destruct (D2 _ _ _ _ Hq Hu) as [D3 D4].
  destruct (r_u_incl _ _ _ _ _ _ _ H Hu) as [IU NU]. destruct (params_nodup _ _ _ _ _ _ H) as (P1 & P2 & P3).
  assert (IA : incl (r_q r ++ r_v r ++ r_a r) (q ++ v ++ a)).
  { rewrite Eq, Ev, Ea. destruct sa; [apply incl_refl|]. rewrite app_nil_r. intros x. rewrite !in_app_iff. tauto. }
  assert (NA : NoDup (r_q r ++ r_v r ++ r_a r)).
  { rewrite Eq, Ev, Ea. destruct sa; auto. rewrite app_nil_r. rewrite app_assoc in D1. clear -D1.
    revert D1. generalize (q ++ v). intros l. induction l; cbn; [constructor|]. intros D; inversion D; subst. constructor; auto. rewrite in_app_iff in *; tauto. }
  replace (r_q r ++ r_v r ++ r_a r ++ r_u r ++ map Static (r_lambdas r) ++ map Static (r_params r))
    with ((r_q r ++ r_v r ++ r_a r) ++ r_u r ++ map Static (r_lambdas r) ++ map Static (r_params r)) by (rewrite <- !app_assoc; auto).
  apply nodup_app; [auto|apply nodup_app; auto; [apply nodup_app|]|].
  - apply FinFun.Injective_map_NoDup; auto. intros i j E; congruence.
  - apply FinFun.Injective_map_NoDup; auto. intros i j E; congruence.
  - intros x Hx Hy. apply in_map_iff in Hx. destruct Hx as (s & <- & Hx). rewrite map_static_in in Hy. apply (P3 s); auto.
  - intros x Hx Hy. assert (exists s, x = Static s /\ (In s (r_params r) \/ In s (r_lambdas r))) as (s & -> & Hs).
    { apply in_app_iff in Hy. destruct Hy as [Hy|Hy]; apply in_map_iff in Hy; destruct Hy as (s & <- & Hy); eauto. }
    destruct (rest_disjoint _ _ _ _ _ _ _ _ _ _ _ H Hq Hu Hs) as [N _]. apply N, IU; auto.
  - intros x Hx Hy. apply in_app_iff in Hy. destruct Hy as [Hy|Hy].
    + apply (D4 x); [apply IU; auto|apply IA; auto].
    + assert (exists s, x = Static s /\ (In s (r_params r) \/ In s (r_lambdas r))) as (s & -> & Hs).
      { apply in_app_iff in Hy. destruct Hy as [Hy|Hy]; apply in_map_iff in Hy; destruct Hy as (s & <- & Hy); eauto. }
      destruct (rest_disjoint _ _ _ _ _ _ _ _ _ _ _ H Hq Hu Hs) as (_ & N1 & N2 & N3). rewrite Eq, Ev, Ea, !in_app_iff in Hx.
      destruct Hx as [Hx|[Hx|Hx]]; auto. destruct sa; [exact (N3 eq_refl Hx)|destruct Hx].
Qed.

Lemma numbered_groups n q v a : q_groups (Q_int n) = Ok (q, v, a) -> NoDup (q ++ v ++ a).
Proof.
  intros E; injection E as <- <- <-. apply nodup_app; [apply numbered_nodup|apply nodup_app; try apply numbered_nodup|].
  - apply numbered_disjoint; [discriminate|reflexivity].
  - intros x Hx Hy. apply in_app_iff in Hy. destruct Hy as [Hy|Hy];
    [exact (numbered_disjoint "q" "v" n n ltac:(discriminate) eq_refl x Hx Hy)|exact (numbered_disjoint "q" "a" n n ltac:(discriminate) eq_refl x Hx Hy)].
Qed.
Lemma numbered_u n U sets q v a u : U = U_none \/ (exists m, U = U_int m) -> q_groups (Q_int n) = Ok (q, v, a) -> u_group sets U = Ok u ->
  NoDup u /\ disjoint u (q ++ v ++ a).
Proof.
  intros HU E Eu. injection E as <- <- <-. assert (exists m, u = numbered "u" m) as (m & ->).
  { destruct HU as [->|(m & ->)]; cbn in Eu; injection Eu as <-; eauto. }
  split; [apply numbered_nodup|]. intros x Hx Hy. rewrite !in_app_iff in Hy. destruct Hy as [Hy|[Hy|Hy]];
  [exact (numbered_disjoint "u" "q" m n ltac:(discriminate) eq_refl x Hx Hy)|exact (numbered_disjoint "u" "v" m n ltac:(discriminate) eq_refl x Hx Hy)|exact (numbered_disjoint "u" "a" m n ltac:(discriminate) eq_refl x Hx Hy)].
Qed.

(** ** Coordinates by name *)
Lemma symb_d_dyn n k : symb_d k (Dyn n 0) = do s <- diff_to_symb (Dyn n k); Ok (Static s).
Proof. reflexivity. Qed.
Lemma symb_d_called n k : (n <> ""%string /\ n <> "q"%string) -> symb_d k (Dyn n 0) = Ok (symb_of (Dyn n k)).
Proof.
  intros [H1 H2]. rewrite symb_d_dyn. destruct (proj2 (diff_to_symb_ok (Dyn n k))) as [s E].
  - intros m j E; injection E as <- _. auto.
  - rewrite E. cbn [rbind]. rewrite (symb_of_symb _ _ E). reflexivity.
Qed.
Lemma coords_groups names : Forall (fun n => n <> ""%string /\ n <> "q"%string) names ->
  q_groups (Q_list (coords 0 names)) = Ok (map symb_of (coords 0 names), map symb_of (coords 1 names), map symb_of (coords 2 names)).
Proof.
  intros H. assert (E : forall k, mapm (symb_d k) (coords 0 names) = Ok (map symb_of (coords k names))).
  { intros k. unfold coords. rewrite map_map. induction H as [|n names Hn H IH]; cbn [map mapm]; auto.
    rewrite symb_d_called by auto. cbn [rbind]. rewrite IH. reflexivity. }
  cbn [q_groups]. rewrite !E. reflexivity.
Qed.
Lemma isdigit_all d : isdigit d = true -> all_digits d = true.
Proof. destruct d; auto; discriminate. Qed.
Lemma isdigit_app a b : isdigit (a ++ b) = true -> all_digits b = true.
Proof. intros H. apply isdigit_all in H. revert H. induction a; cbn; auto. rewrite andb_true_iff. tauto. Qed.
Lemma isdigit_of_all s : s <> ""%string -> all_digits s = true -> isdigit s = true.
Proof. destruct s; cbn; auto; congruence. Qed.
Lemma dots_not_digits k a : isdigit (a ++ dots (S k)) = false.
Proof. destruct (isdigit (a ++ dots (S k))) eqn:E; auto. apply isdigit_app in E. cbn in E. discriminate. Qed.
Lemma std_none_symb n k : standard_name n -> called (Dyn n k) = symb_of (Dyn n k) .
Proof.
  intros (H & H1 & H2). unfold called. destruct k as [|k].
  - cbn. rewrite H. reflexivity.
  - destruct (proj2 (diff_to_symb_ok (Dyn n (S k)))) as [s E]; [intros m j F; injection F as <- _; auto|].
    rewrite (symb_of_symb _ _ E). cbn [std]. cbn in E. destruct n as [|c t]; [congruence|]. cbn in E.
    destruct (Ascii.eqb_spec c "q"%char) as [->|Hc]; cbn [negb] in E.
    + destruct t as [|d t]; [discriminate|]. cbn [rbind tail1] in E.
      assert (ND : isdigit (String d t) = false).
      { destruct (isdigit (String d t)) eqn:F; auto. unfold std_name in H. rewrite F in H. discriminate. }
      destruct ((d =? "_")%char || digit d)%bool eqn:QN.
      * destruct k as [|[|k]]; injection E as <-; cbn [append].
        -- unfold std_name. rewrite ND. reflexivity.
        -- unfold std_name. rewrite ND. reflexivity.
        -- reflexivity.
      * injection E as <-. cbn [append]. unfold std_name.
        replace (isdigit (String d (t ++ String "_" (String "d" (String "o" (String "t" (dots k))))))) with false; [reflexivity|].
        symmetry. exact (dots_not_digits k (String d t)).
    + injection E as <-. cbn [append]. unfold std_name.
      replace (isdigit (t ++ String "_" (String "d" (String "o" (String "t" (dots k)))))) with false; [reflexivity|].
      symmetry. exact (dots_not_digits k t).
Qed.
Lemma coords_called k names : Forall standard_name names -> map symb_of (coords k names) = map called (coords k names).
Proof.
  intros H. unfold coords. rewrite !map_map. apply map_ext_in. intros n Hn. symmetry. apply std_none_symb. rewrite Forall_forall in H. auto.
Qed.
Lemma standard_ok names : Forall standard_name names -> Forall (fun n => n <> ""%string /\ n <> "q"%string) names.
Proof. apply Forall_impl. intros n (_ & A & B); auto. Qed.
