(** Proofs about labels, colours and names of files. *)
From Coq Require Import String Ascii DecimalString Permutation.
From Verif Require Import Prelude PwInterpModel DispatchModel DispatchSpec DispatchProofs SymModel SymProofs PlotModel PlotSpec.
Open Scope string_scope.
Open Scope list_scope.

(** ** Labels *)
Lemma dict_at_in {A} (d : list (string * A)) k v : dict_at d k = Ok v -> In (k, v) d.
Proof.
  unfold dict_at. destruct (find _ (rev d)) as [[k' v']|] eqn:E; [|discriminate]. intros H. injection H as <-.
  apply find_some in E. destruct E as (E & F). cbn [fst] in F. apply String.eqb_eq in F. subst k'. now apply in_rev.
Qed.
Definition forms (bu td ph_text : string) (e : string * string) : list (string * string) :=
  let '(k, v) := e in
  let three := [(k, v); (("BU_" ++ k)%string, (v ++ bu)%string); (("TD_" ++ k)%string, (v ++ td)%string)] in
  three ++ map (fun p => (("ph_" ++ fst p)%string, (ph_text ++ snd p)%string)) three.
Lemma prefixed_in d bu td pht s l : prefixed d bu td pht s = Ok l -> In (s, l) (flat_map (forms bu td pht) d).
Proof.
  intros H. apply in_flat_map. unfold prefixed in H.
  assert (X : exists (ph : bool) s', s = ((if ph then "ph_" else "") ++ s')%string /\
    (if head3 s =? "ph_" then (true, tail3 s) else (false, s)) = (ph, s')).
  { destruct (head3 s =? "ph_") eqn:E.
    - apply String.eqb_eq in E. exists true, (tail3 s). split; [|reflexivity]. now apply head3_spec.
    - now exists false, s. }
  destruct X as (ph & s' & Es & E). rewrite E in H. clear E.
  assert (Y : exists k v, In (k, v) d /\ exists l', In (s', l') [(k, v); (("BU_" ++ k)%string, (v ++ bu)%string); (("TD_" ++ k)%string, (v ++ td)%string)] /\
     l = if ph then (pht ++ l')%string else l').
  { destruct (head3 s' =? "BU_") eqn:E1; [|destruct (head3 s' =? "TD_") eqn:E2].
    - apply String.eqb_eq in E1. apply head3_spec in E1; [|reflexivity].
      destruct (dict_at d (tail3 s')) as [v|] eqn:D; [|discriminate]. cbn [rbind] in H. injection H as <-.
      exists (tail3 s'), v. split; [now apply dict_at_in|]. exists (v ++ bu)%string. split; [|reflexivity].
      right. left. now rewrite <- E1.
    - apply String.eqb_eq in E2. apply head3_spec in E2; [|reflexivity].
      destruct (dict_at d (tail3 s')) as [v|] eqn:D; [|discriminate]. cbn [rbind] in H. injection H as <-.
      exists (tail3 s'), v. split; [now apply dict_at_in|]. exists (v ++ td)%string. split; [|reflexivity].
      right. right. left. now rewrite <- E2.
    - destruct (dict_at d s') as [v|] eqn:D; [|discriminate]. cbn [rbind] in H. injection H as <-.
      exists s', v. split; [now apply dict_at_in|]. exists v. split; [|reflexivity]. now left. }
  destruct Y as (k & v & I & l' & J & ->). exists (k, v). split; [exact I|]. unfold forms. apply in_or_app.
  destruct ph; cbn [append] in Es; subst s.
  - right. apply in_map_iff. exists (s', l'). split; [reflexivity|exact J].
  - left. exact J.
Qed.
Definition distinct_labels (l : list (string * string)) : bool :=
  forallb (fun p => forallb (fun q => implb (snd p =? snd q) (fst p =? fst q)) l) l.
Lemma distinct_ok l : distinct_labels l = true -> forall s s' x, In (s, x) l -> In (s', x) l -> s = s'.
Proof.
  unfold distinct_labels. rewrite forallb_forall. intros H s s' x I J. specialize (H _ I). rewrite forallb_forall in H.
  specialize (H _ J). cbn [fst snd] in H. rewrite String.eqb_refl in H. now apply String.eqb_eq.
Qed.
Lemma lab_inj s s' l : sch_to_lab s = Ok l -> sch_to_lab s' = Ok l -> s = s'.
Proof.
  intros A B. apply prefixed_in in A. apply prefixed_in in B. revert A B. apply distinct_ok. vm_compute. reflexivity.
Qed.
Lemma long_inj s s' l : sch_to_long_label s = Ok l -> sch_to_long_label s' = Ok l -> s = s'.
Proof.
  intros A B. apply prefixed_in in A. apply prefixed_in in B. revert A B. apply distinct_ok. vm_compute. reflexivity.
Qed.

Definition okb {A} (r : Res A) : bool := match r with Ok _ => true | Err _ => false end.
Lemma okb_ok {A} (r : Res A) : okb r = true <-> is_ok r.
Proof. destruct r as [a|e]; cbn; split; [now exists a|reflexivity|discriminate|intros (a & H); discriminate]. Qed.
Definition all_families : list family := [FEquispaced; FPseudospectral; FBottomUp; FTopDown].
Definition checked (P : string -> bool) (without : list string) : bool :=
  forallb (fun ph : bool => forallb (fun f => forallb (fun b =>
    Bool.eqb (P ((if ph then "ph_" else "") ++ family_prefix f ++ b)%string) (negb (mem b without)))
    (plain_names f)) all_families) [true; false].
Lemma checked_ok P without : checked P without = true ->
  forall ph f base s, names ph f base s -> P s = true <-> ~ In base without.
Proof.
  unfold checked. rewrite forallb_forall. intros H ph f base s (I & ->). specialize (H ph).
  rewrite forallb_forall in H. specialize (H ltac:(destruct ph; cbn; auto) f ltac:(destruct f; cbn; auto)).
  rewrite forallb_forall in H. specialize (H base I). apply eqb_prop in H.
  change (String.append (family_prefix f) base) with (family_prefix f ++ base)%string.
  rewrite H. rewrite <- (mem_In base without). destruct (mem base without); cbn; split; intros; congruence.
Qed.
Lemma labels_for ph f base s : names ph f base s ->
  (is_ok (sch_to_lab s) <-> ~ In base unlabelled) /\ (is_ok (sch_to_long_label s) <-> ~ In base unlabelled) /\
  (is_ok (sch_to_color s) <-> ~ In base uncoloured).
Proof.
  intros N. split; [|split]; rewrite <- okb_ok.
  - apply (checked_ok (fun s => okb (sch_to_lab s)) unlabelled) with (ph := ph) (f := f); [vm_compute; reflexivity|exact N].
  - apply (checked_ok (fun s => okb (sch_to_long_label s)) unlabelled) with (ph := ph) (f := f); [vm_compute; reflexivity|exact N].
  - apply (checked_ok (fun s => okb (sch_to_color s)) uncoloured) with (ph := ph) (f := f); [vm_compute; reflexivity|exact N].
Qed.
Definition key_only {A} (r : Res A) : bool := match r with Err e => match e with KeyError => true | _ => false end | _ => true end.
Lemma dict_key {A} (d : list (string * A)) k e : dict_at d k = Err e -> e = KeyError.
Proof. unfold dict_at. destruct (find _ _) as [p|]; congruence. Qed.
Lemma prefixed_key d bu td pht s e : prefixed d bu td pht s = Err e -> e = KeyError.
Proof.
  unfold prefixed. destruct (if head3 s =? "ph_" then (true, tail3 s) else (false, s)) as [ph s'].
  destruct (head3 s' =? "BU_"); [|destruct (head3 s' =? "TD_")].
  - destruct (dict_at d (tail3 s')) eqn:D; cbn [rbind]; [discriminate|]. intros H. injection H as <-. now apply dict_key in D.
  - destruct (dict_at d (tail3 s')) eqn:D; cbn [rbind]; [discriminate|]. intros H. injection H as <-. now apply dict_key in D.
  - destruct (dict_at d s') eqn:D; cbn [rbind]; [discriminate|]. intros H. injection H as <-. now apply dict_key in D.
Qed.
Lemma label_errors s e : sch_to_lab s = Err e \/ sch_to_long_label s = Err e \/ sch_to_color s = Err e -> e = KeyError.
Proof.
  intros [H|[H|H]]; [now apply prefixed_key in H|now apply prefixed_key in H|]. unfold sch_to_color in H. now apply dict_key in H.
Qed.
(** Two labels of [scheme_kwargs] agree only for the same scheme and order. *)

(** ** Sorting *)
Lemma leb_trans a b c : String.leb a b = true -> String.leb b c = true -> String.leb a c = true.
Proof.
  unfold String.leb. revert b c. induction a as [|x a IH]; intros [|y b] [|z c]; cbn; try congruence.
  unfold Ascii.compare. intros H K.
  destruct (N.compare_spec (N_of_ascii x) (N_of_ascii y)) as [E|E|E]; [| |discriminate];
  destruct (N.compare_spec (N_of_ascii y) (N_of_ascii z)) as [F|F|F]; try discriminate.
  - rewrite E, F, N.compare_refl. now apply (IH b).
  - rewrite E. now apply N.compare_lt_iff in F; rewrite F.
  - rewrite <- F. now apply N.compare_lt_iff in E; rewrite E.
  - assert (G : (N_of_ascii x < N_of_ascii z)%N) by (eapply N.lt_trans; eassumption). now apply N.compare_lt_iff in G; rewrite G.
Qed.
Lemma leb_refl a : String.leb a a = true.
Proof. destruct (String.leb_total a a); assumption. Qed.
Lemma insert_comm x y l : insert_s x (insert_s y l) = insert_s y (insert_s x l).
Proof.
  induction l as [|z l IH]; cbn [insert_s].
  - destruct (String.leb x y) eqn:A, (String.leb y x) eqn:B; try reflexivity.
    + now rewrite (String.leb_antisym x y A B).
    + destruct (String.leb_total x y); congruence.
  - destruct (String.leb y z) eqn:A, (String.leb x z) eqn:B; cbn [insert_s]; rewrite ?A, ?B; cbn [insert_s].
    + destruct (String.leb x y) eqn:C, (String.leb y x) eqn:D; rewrite ?A, ?B; try reflexivity.
      * now rewrite (String.leb_antisym x y C D).
      * destruct (String.leb_total x y); congruence.
    + destruct (String.leb x y) eqn:C; [pose proof (leb_trans x y z C A); congruence|]. reflexivity.
    + destruct (String.leb y x) eqn:C; [pose proof (leb_trans y x z C B); congruence|]. reflexivity.
    + now rewrite IH.
Qed.
Lemma sort_perm l l' : Permutation l l' -> sort_s l = sort_s l'.
Proof.
  unfold sort_s. induction 1 as [|x l l' P IH|x y l|l l' l'' P IH Q JH]; cbn [fold_right].
  - reflexivity.
  - now rewrite IH.
  - apply insert_comm.
  - congruence.
Qed.
Lemma insert_perm x l : Permutation (insert_s x l) (x :: l).
Proof.
  induction l as [|y l IH]; cbn [insert_s]; [apply Permutation_refl|]. destruct (String.leb x y); [apply Permutation_refl|].
  eapply perm_trans; [apply perm_skip, IH|]. apply perm_swap.
Qed.
Lemma sort_permutes l : Permutation (sort_s l) l.
Proof.
  induction l as [|x l IH]; [constructor|]. cbn [sort_s fold_right]. eapply perm_trans; [apply insert_perm|]. now apply perm_skip.
Qed.

(** ** Strings *)
Lemma app_assoc' a b c : ((a ++ b) ++ c = a ++ b ++ c)%string.
Proof. induction a as [|x a IH]; cbn; [reflexivity|]. now rewrite IH. Qed.
Lemma app_length' a b : (String.length (a ++ b) = String.length a + String.length b)%nat.
Proof. induction a as [|x a IH]; cbn; [reflexivity|]. now rewrite IH. Qed.
Lemma app_inv_l a b c : (a ++ b = a ++ c)%string -> b = c.
Proof. induction a as [|x a IH]; cbn; [auto|]. intros H. injection H as H. auto. Qed.
Lemma app_inv_r a b c : (a ++ c = b ++ c)%string -> a = b.
Proof.
  revert b. induction a as [|x a IH]; intros [|y b] H; cbn in H; [reflexivity| | |].
  - exfalso. apply (f_equal String.length) in H. cbn in H. rewrite app_length' in H. lia.
  - exfalso. apply (f_equal String.length) in H. cbn in H. rewrite app_length' in H. lia.
  - injection H as -> H. f_equal. now apply IH.
Qed.
Lemma lacks_app c a b : lacks c (a ++ b) <-> lacks c a /\ lacks c b.
Proof. induction a as [|x a IH]; cbn; [tauto|]. rewrite IH. tauto. Qed.
(** Empty, or starting with c. *)
Definition from_c (c : ascii) (s : string) : Prop := match s with EmptyString => True | String d _ => d = c end.
Lemma split_at c a b r r' : lacks c a -> lacks c b -> from_c c r -> from_c c r' -> (a ++ r = b ++ r')%string -> a = b /\ r = r'.
Proof.
  revert b. induction a as [|x a IH]; intros [|y b] A B R R' H; cbn in *; [auto| | |].
  - subst r. cbn in R. destruct B. congruence.
  - subst r'. cbn in R'. destruct A. congruence.
  - injection H as -> H. destruct A, B. destruct (IH b) as (-> & ->); auto.
Qed.
Lemma str_uint_lacks c d : (forall k, c <> ascii_of_nat (48 + k) \/ (9 < k)%nat) -> lacks c (NilEmpty.string_of_uint d).
Proof.
  intros H. induction d; cbn; (exact I || (split; [|assumption])).
  all: intros <-;
    match goal with H : forall k, ?c <> _ \/ _ |- _ =>
      first [destruct (H 0%nat) as [X|X]; [now apply X|lia] | destruct (H 1%nat) as [X|X]; [now apply X|lia]
        | destruct (H 2%nat) as [X|X]; [now apply X|lia] | destruct (H 3%nat) as [X|X]; [now apply X|lia]
        | destruct (H 4%nat) as [X|X]; [now apply X|lia] | destruct (H 5%nat) as [X|X]; [now apply X|lia]
        | destruct (H 6%nat) as [X|X]; [now apply X|lia] | destruct (H 7%nat) as [X|X]; [now apply X|lia]
        | destruct (H 8%nat) as [X|X]; [now apply X|lia] | destruct (H 9%nat) as [X|X]; [now apply X|lia] ] end.
Qed.
Definition no_digit (c : ascii) : Prop := forall k, c <> ascii_of_nat (48 + k) \/ (9 < k)%nat.
Lemma no_digit_check c : forallb (fun k => negb (Ascii.eqb c (ascii_of_nat (48 + k)))) (seq 0 10) = true -> no_digit c.
Proof.
  rewrite forallb_forall. intros H k. destruct (Nat.le_gt_cases k 9) as [L|G]; [left|now right]. intros E.
  specialize (H k ltac:(apply in_seq; lia)). rewrite <- E, Ascii.eqb_refl in H. discriminate.
Qed.
Lemma str_nat_lacks c n : no_digit c -> lacks c (str_nat n).
Proof.
  intros H. unfold str_nat, NilZero.string_of_uint. pose proof (str_uint_lacks c (Nat.to_uint n) H) as L.
  destruct (Nat.to_uint n); try exact L. cbn. split; [|exact I]. intros <-. destruct (H 0%nat) as [X|X]; [now apply X|lia].
Qed.

(** ** Names of files *)
Definition middle (N q : option nat) : string :=
  ((match q with Some q => "_q_" ++ str_nat (q + 1) | None => "" end) ++ (match N with None => "_vs_N" | Some n => "_N" ++ str_nat n end))%string.
Definition tail_of (l : list string) : string := fold_right (fun s t => ("--" ++ s ++ t)%string) "" l.
Lemma fold_tail l : forall t, fold_left (fun title scheme => (title ++ "--" ++ scheme)%string) l t = (t ++ tail_of l)%string.
Proof.
  induction l as [|s l IH]; intros t; cbn [fold_left tail_of fold_right].
  - induction t as [|x t I]; cbn; [reflexivity|now rewrite <- I].
  - rewrite IH. fold (tail_of l). rewrite !app_assoc'. reflexivity.
Qed.
Definition add_part (add : option string) : string := match add with Some a => ("--" ++ a)%string | None => "" end.
Lemma app_nil_r' a : (a ++ "" = a)%string.
Proof. induction a as [|x a IH]; cbn; [reflexivity|now rewrite IH]. Qed.
Lemma fig_name P G l fmt N q add : gen_fig_filename P G l fmt N q add =
  path_join (P ++ "_figs")%string (P ++ "_" ++ G ++ middle N q ++ tail_of (sort_s l) ++ add_part add ++ "." ++ fmt)%string.
Proof.
  unfold gen_fig_filename. f_equal. rewrite fold_tail. unfold middle, add_part.
  destruct q, N, add; repeat rewrite ?app_assoc'; cbn [append]; reflexivity.
Qed.
Lemma last_figs P : String.substring (String.length (P ++ "_figs") - 1) 1 (P ++ "_figs") = "s".
Proof.
  rewrite app_length'. cbn [String.length]. replace (String.length P + 5 - 1)%nat with (String.length P + 4)%nat by lia.
  induction P as [|x P IH]; [reflexivity|]. cbn. exact IH.
Qed.
Lemma join_figs P b : path_join (P ++ "_figs")%string b = if String.prefix "/" b then b else (P ++ "_figs" ++ "/" ++ b)%string.
Proof.
  unfold path_join. rewrite last_figs. destruct (String.prefix "/" b); [reflexivity|].
  replace (P ++ "_figs" =? "") with false by (destruct P; reflexivity). cbn [orb String.eqb].
  change ("s" =? "/") with false. cbn [orb]. now rewrite !app_assoc'.
Qed.
Lemma prefix_same P r r' : String.prefix "/" (P ++ "_" ++ r)%string = String.prefix "/" (P ++ "_" ++ r')%string.
Proof.
  assert (E : forall s, String.prefix "" s = true) by (intros [|c s]; reflexivity).
  destruct P as [|x P]; cbn -[ascii_dec String.prefix]; [reflexivity|]. cbn -[ascii_dec]. destruct (ascii_dec "/" x); [|reflexivity]. now rewrite !E.
Qed.

Lemma file_order P G l l' fmt N q add : Permutation l l' -> gen_fig_filename P G l fmt N q add = gen_fig_filename P G l' fmt N q add.
Proof. intros H. rewrite !fig_name. now rewrite (sort_perm l l' H). Qed.

Lemma middle_lacks N q : lacks "-"%char (middle N q).
Proof.
  assert (D : no_digit "-"%char) by (apply no_digit_check; reflexivity).
  unfold middle. apply lacks_app. split; [destruct q|destruct N]; cbn [append lacks]; repeat (split; [discriminate|]); try exact I; now apply str_nat_lacks.
Qed.
Lemma middle_inj N q N' q' : middle N q = middle N' q' -> N = N' /\ q = q'.
Proof.
  assert (D : no_digit "_"%char) by (apply no_digit_check; reflexivity).
  assert (E : forall M M' : option nat, (match M with None => "_vs_N" | Some n => "_N" ++ str_nat n end)%string =
     (match M' with None => "_vs_N" | Some n => "_N" ++ str_nat n end)%string -> M = M').
  { intros [n|] [n'|] H; cbn in H; try discriminate; [|reflexivity]. injection H as H. f_equal. now apply str_nat_inj. }
  unfold middle. destruct q as [q|], q' as [q'|]; intros H.
  - rewrite !app_assoc' in H. apply app_inv_l in H. apply (split_at "_"%char) in H.
    + destruct H as (A & B). apply str_nat_inj in A. apply E in B. subst. split; [reflexivity|]. f_equal. lia.
    + now apply str_nat_lacks.
    + now apply str_nat_lacks.
    + destruct N; reflexivity.
    + destruct N'; reflexivity.
  - destruct N'; cbn in H; discriminate.
  - destruct N; cbn in H; discriminate.
  - split; [|reflexivity]. now apply E.
Qed.
Lemma tail_from l : from_c "-"%char (tail_of l).
Proof. destruct l; reflexivity. Qed.
Lemma tail_inj l : forall l', Forall (lacks "-"%char) l -> Forall (lacks "-"%char) l' -> tail_of l = tail_of l' -> l = l'.
Proof.
  induction l as [|s l IH]; intros [|s' l'] A B H; cbn in H; try discriminate; [reflexivity|]. injection H as H.
  inversion A; inversion B; subst. apply (split_at "-"%char) in H; auto; try apply tail_from.
  destruct H as (-> & H). f_equal. now apply IH.
Qed.
Lemma lacks_sort l : Forall (lacks "-"%char) l -> Forall (lacks "-"%char) (sort_s l).
Proof. intros H. apply Forall_forall. intros x I. rewrite Forall_forall in H. apply H. eapply Permutation_in; [apply sort_permutes|exact I]. Qed.
Lemma file_distinct P G fmt l l' N q N' q' :
  Forall (lacks "-"%char) l -> Forall (lacks "-"%char) l' ->
  gen_fig_filename P G l fmt N q None = gen_fig_filename P G l' fmt N' q' None -> N = N' /\ q = q' /\ Permutation l l'.
Proof.
  intros A B H. rewrite !fig_name, !join_figs in H. cbn [add_part] in H.
  rewrite (prefix_same P _ (G ++ middle N' q' ++ tail_of (sort_s l') ++ "" ++ "." ++ fmt)%string) in H.
  assert (K : (P ++ "_" ++ G ++ middle N q ++ tail_of (sort_s l) ++ "" ++ "." ++ fmt = P ++ "_" ++ G ++ middle N' q' ++ tail_of (sort_s l') ++ "" ++ "." ++ fmt)%string).
  { destruct (String.prefix _ _); [exact H|]. now apply app_inv_l, app_inv_l, app_inv_l in H. }
  apply app_inv_l, app_inv_l, app_inv_l in K. rewrite <- !(app_assoc' (middle _ _)) in K. cbn [append] in K.
  apply (app_inv_r _ _ (String "." fmt)) in K || (rewrite <- !(app_assoc' _ _ (String "." fmt)) in K; apply app_inv_r in K).
  apply (split_at "-"%char) in K; try apply middle_lacks; try apply tail_from. destruct K as (K & L).
  apply middle_inj in K. destruct K as (-> & ->). split; [reflexivity|]. split; [reflexivity|].
  apply tail_inj in L; try now apply lacks_sort. eapply perm_trans; [apply Permutation_sym, sort_permutes|]. rewrite L. apply sort_permutes.
Qed.

Lemma lacks_slash_head c s : lacks c s -> String.prefix (String c "") s = false.
Proof. destruct s as [|d s]; [reflexivity|]. cbn. intros (A & _). destruct (ascii_dec c d) as [->|]; [congruence|reflexivity]. Qed.
Lemma tail_lacks c l : c <> "-"%char -> Forall (lacks c) l -> lacks c (tail_of l).
Proof.
  intros H. induction 1 as [|s l A B IH]; cbn; [exact I|]. repeat (split; [congruence|]). apply lacks_app. auto.
Qed.
Lemma file_folder P G l fmt N q add :
  lacks "/"%char P -> lacks "/"%char G -> Forall (lacks "/"%char) l -> lacks "/"%char fmt ->
  match add with Some a => lacks "/"%char a | None => True end ->
  directly_in (fst (save_fig P G l fmt N q add)) (snd (save_fig P G l fmt N q add)).
Proof.
  intros A B C D E. unfold save_fig. cbn [fst snd]. rewrite fig_name.
  assert (L : lacks "/"%char (P ++ "_" ++ G ++ middle N q ++ tail_of (sort_s l) ++ add_part add ++ "." ++ fmt)%string).
  { assert (Z : no_digit "/"%char) by (apply no_digit_check; reflexivity).
    apply lacks_app. split; [exact A|]. apply lacks_app. split; [cbn; split; [discriminate|exact I]|].
    apply lacks_app. split; [exact B|]. apply lacks_app. split.
    { unfold middle. apply lacks_app. split; [destruct q|destruct N]; cbn [append lacks]; repeat (split; [discriminate|]); try exact I; now apply str_nat_lacks. }
    apply lacks_app. split.
    { apply tail_lacks; [discriminate|]. apply Forall_forall. intros x J. rewrite Forall_forall in C. apply C. eapply Permutation_in; [apply sort_permutes|exact J]. }
    apply lacks_app. split.
    { destruct add; cbn; [|exact I]. repeat (split; [discriminate|]). exact E. }
    cbn. split; [discriminate|exact D]. }
  eexists. split; [|exact L]. rewrite join_figs, (lacks_slash_head "/"%char _ L). now rewrite !app_assoc'.
Qed.

(** ** Styles *)
Lemma style_ok ph f base s long cp o : names ph f base s -> is_ok (scheme_kwargs s long cp o) <-> ~ In base unlabelled.
Proof.
  intros N. destruct (labels_for ph f base s N) as (A & B & C). unfold scheme_kwargs.
  assert (U : ~ In base unlabelled -> ~ In base uncoloured).
  { unfold unlabelled, uncoloured. cbn. tauto. }
  split.
  - intros (st & E). destruct (sch_to_color s) as [c|]; [|discriminate]. cbn [rbind] in E.
    destruct long; [destruct (sch_to_long_label s) as [l|] eqn:F; [apply B; now exists l|discriminate]|
      destruct (sch_to_lab s) as [l|] eqn:F; [apply A; now exists l|discriminate]].
  - intros H. destruct C as (_ & C). destruct (C (U H)) as (c & ->). cbn [rbind].
    destruct A as (_ & A), B as (_ & B). destruct (A H) as (l & ->), (B H) as (l' & ->).
    destruct long; cbn [rbind]; destruct o; eexists; reflexivity.
Qed.
Lemma style_label s long cp o st : scheme_kwargs s long cp o = Ok st ->
  exists l, (if long then sch_to_long_label s else sch_to_lab s) = Ok l /\
    st_label st = match o with None => l | Some o => (l ++ " order " ++ str_nat o)%string end.
Proof.
  unfold scheme_kwargs. destruct (sch_to_color s) as [c|]; [|discriminate]. cbn [rbind].
  destruct (if long then sch_to_long_label s else sch_to_lab s) as [l|] eqn:E; [|discriminate]. cbn [rbind].
  intros H. exists l. split; [reflexivity|]. destruct o; injection H as <-; reflexivity.
Qed.
Lemma style_inj s s' long cp cp' o st st' : scheme_kwargs s long cp o = Ok st -> scheme_kwargs s' long cp' o = Ok st' ->
  st_label st = st_label st' -> s = s'.
Proof.
  intros A B E. apply style_label in A. apply style_label in B. destruct A as (l & A & Ea), B as (l' & B & Eb).
  assert (l = l') as <-.
  { rewrite Ea, Eb in E. destruct o; [|exact E]. now apply app_inv_r in E. }
  destruct long; [now apply (long_inj s s' l)|now apply (lab_inj s s' l)].
Qed.
