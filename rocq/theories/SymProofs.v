(** Proofs about renaming and classifying symbols. *)
From Coq Require Import String Ascii Permutation Sorting.Sorted DecimalString DecimalNat Structures.OrdersEx Classes.RelationClasses.
From Verif Require Import Prelude PreludeFacts PwInterpModel SymModel SymSpec.
Open Scope R_scope.
Open Scope list_scope.

(** ** Evaluation *)
Lemma eval_ext e : forall r s, (forall a, In a (atoms e) -> r a = s a) -> eval r e = eval s e.
Proof.
  induction e; intros r0 s H; cbn; auto.
  - apply H; left; reflexivity.
  - rewrite (IHe1 r0 s), (IHe2 r0 s); auto; intros; apply H; cbn; apply in_or_app; auto.
  - rewrite (IHe1 r0 s), (IHe2 r0 s); auto; intros; apply H; cbn; apply in_or_app; auto.
  - rewrite (IHe r0 s); auto.
Qed.
Fixpoint bind (e : expr) (k : atom -> expr) : expr :=
  match e with
  | Num r => Num r
  | Var a => k a
  | Plus e1 e2 => Plus (bind e1 k) (bind e2 k)
  | Times e1 e2 => Times (bind e1 k) (bind e2 k)
  | Func g n e => Func g n (bind e k)
  end.
Lemma bind_ext e : forall r s, (forall a, In a (atoms e) -> r a = s a) -> bind e r = bind e s.
Proof.
  induction e; intros r0 s H; cbn; auto.
  - apply H; left; reflexivity.
  - rewrite (IHe1 r0 s), (IHe2 r0 s); auto; intros; apply H; cbn; apply in_or_app; auto.
  - rewrite (IHe1 r0 s), (IHe2 r0 s); auto; intros; apply H; cbn; apply in_or_app; auto.
  - rewrite (IHe r0 s); auto.
Qed.
Lemma bind_bind e k l : bind (bind e k) l = bind e (fun a => bind (k a) l).
Proof. induction e; cbn; congruence. Qed.
Lemma subs1_bind old new e : subs1 old new e = bind e (subs_atom old new).
Proof. induction e; cbn; congruence. Qed.
Lemma rename_bind f e : rename f e = bind e (fun a => Var (f a)).
Proof. induction e; cbn; congruence. Qed.
Lemma bind_var e : bind e Var = e.
Proof. induction e; cbn; congruence. Qed.
Lemma eval_rename f e rho : eval rho (rename f e) = eval (fun a => rho (f a)) e.
Proof. induction e; cbn; congruence. Qed.
Lemma atoms_rename f e : atoms (rename f e) = map f (atoms e).
Proof. induction e; cbn; rewrite ?map_app; congruence. Qed.
Lemma atoms_subs1 old new e b :
  In b (atoms (subs1 old new e)) -> exists a, In a (atoms e) /\ In b (atoms (subs_atom old new a)).
Proof.
  induction e; cbn; intros H; try tauto.
  - exists a; auto.
  - apply in_app_or in H; destruct H as [H|H]; [destruct (IHe1 H) as (a & ? & ?)|destruct (IHe2 H) as (a & ? & ?)];
      exists a; split; auto; apply in_or_app; auto.
  - apply in_app_or in H; destruct H as [H|H]; [destruct (IHe1 H) as (a & ? & ?)|destruct (IHe2 H) as (a & ? & ?)];
      exists a; split; auto; apply in_or_app; auto.
Qed.

(** ** Replacing dynamic symbols by plain symbols, higher levels first *)
Definition no_higher (n : string) (k : nat) (e : expr) : Prop :=
  forall j, In (Dyn n j) (atoms e) -> (j <= k)%nat.
Lemma subs_atom_static n k s a :
  (forall j, a = Dyn n j -> (j <= k)%nat) ->
  subs_atom (Dyn n k) (Static s) a = if atom_eq_dec a (Dyn n k) then Var (Static s) else Var a.
Proof.
  intros H; unfold subs_atom; destruct (atom_eq_dec a (Dyn n k)); auto.
  destruct a as [m|m j]; auto.
  destruct (String.eqb_spec n m) as [->|]; auto. cbn [andb].
  destruct (Nat.ltb_spec k j); auto. specialize (H j eq_refl); lia.
Qed.

Lemma level_insert a l : Sorted (fun x y => (derivative_level y <= derivative_level x)%nat) l ->
  Sorted (fun x y => (derivative_level y <= derivative_level x)%nat) (insert_level a l).
Proof.
  induction l as [|b l IH]; cbn; intros H; [repeat constructor|].
  destruct (Nat.leb_spec (derivative_level b) (derivative_level a)).
  - constructor; auto.
  - inversion H as [|? ? H1 H2]; subst. constructor; auto.
    destruct l as [|c l]; cbn in *; [constructor; lia|].
    destruct (Nat.leb_spec (derivative_level c) (derivative_level a)); constructor; [lia|].
    inversion H2; auto.
Qed.
Lemma sort_levels_sorted l : StronglySorted (fun x y => (derivative_level y <= derivative_level x)%nat) (sort_levels l).
Proof.
  apply Sorted_StronglySorted; [intros x y z; lia|].
  induction l; cbn; [constructor|apply level_insert; auto].
Qed.
Lemma insert_level_perm a l : Permutation (a :: l) (insert_level a l).
Proof.
  induction l as [|b l IH]; cbn; auto.
  destruct (_ <=? _)%nat; auto.
  apply perm_trans with (b :: a :: l); [constructor|constructor; auto].
Qed.
Lemma sort_levels_perm l : Permutation l (sort_levels l).
Proof.
  induction l as [|a l IH]; cbn; auto.
  apply perm_trans with (a :: sort_levels l); [constructor; auto|apply insert_level_perm].
Qed.

Lemma mapm_pairs l m :
  mapm (fun a => do s <- diff_to_symb a; Ok (a, Static s)) l = Ok m ->
  map fst m = l /\ Forall (fun p => exists s, snd p = Static s /\ diff_to_symb (fst p) = Ok s) m.
Proof.
  revert m; induction l as [|a l IH]; intros m H; cbn in H.
  - injection H as <-; split; [reflexivity|constructor].
  - destruct (diff_to_symb a) as [s|] eqn:E; cbn in H; [|discriminate].
    destruct (mapm _ l) as [m'|] eqn:E2; cbn in H; [|discriminate].
    injection H as <-. destruct (IH m' eq_refl) as [A B].
    split; [cbn; congruence|constructor; auto]. exists s; auto.
Qed.

Lemma symb_of_static s : symb_of (Static s) = Static s.
Proof. reflexivity. Qed.

Lemma subs_sorted m : forall e,
  StronglySorted (fun x y => (derivative_level y <= derivative_level x)%nat) (map fst m) ->
  Forall (fun p => exists s, snd p = Static s /\ diff_to_symb (fst p) = Ok s) m ->
  Forall (fun p => is_dyn (fst p) = true) m ->
  (forall a, In a (atoms e) -> is_dyn a = true -> In a (map fst m)) ->
  subs m e = rename symb_of e.
Proof.
  induction m as [|[old new] m IH]; intros e Hs Hm Hd Hc; cbn.
  - rewrite rename_bind. rewrite <- (bind_var e) at 1. apply bind_ext; intros [s|n k] Ha; [reflexivity|].
    destruct (Hc _ Ha eq_refl).
  - inversion Hm as [|? ? [s [E1 E2]] Hm']; subst; cbn in *; subst.
    inversion Hd as [|? ? Hd1 Hd']; subst; cbn in Hd1.
    inversion Hs as [|? ? Hs' Hs1]; subst.
    destruct old as [|n k]; [discriminate|].
    assert (Hh : forall a j, In a (atoms e) -> a = Dyn n j -> (j <= k)%nat).
    { intros a j Ha ->. destruct (Hc _ Ha eq_refl) as [E|Hin]; [injection E as ->; lia|].
      rewrite Forall_forall in Hs1; apply (Hs1 _ Hin). }
    rewrite IH; auto.
    + rewrite !rename_bind, subs1_bind, bind_bind. apply bind_ext; intros a Ha. cbv beta.
      rewrite subs_atom_static by (intros; eapply Hh; eauto).
      destruct (atom_eq_dec a (Dyn n k)) as [->|]; cbn; auto.
      unfold symb_of; rewrite E2. reflexivity.
    + intros b Hb Hdb. destruct (atoms_subs1 _ _ _ _ Hb) as (a & Ha & Hba).
      rewrite subs_atom_static in Hba by (intros; eapply Hh; eauto).
      destruct (atom_eq_dec a (Dyn n k)); cbn in Hba; destruct Hba as [<-|[]]; [discriminate|].
      destruct (Hc _ Ha Hdb); congruence.
Qed.

Theorem diff_to_symb_expr_value order e e' :
  Forall (fun a => is_dyn a = true) order ->
  (forall a, In a (atoms e) -> is_dyn a = true -> In a order) ->
  diff_to_symb_expr order e = Ok e' ->
  e' = rename symb_of e.
Proof.
  intros Hd Hc H. unfold diff_to_symb_expr in H.
  destruct (mapm _ _) as [m|] eqn:E; cbn in H; [|discriminate]. injection H as <-.
  destruct (mapm_pairs _ _ E) as [E1 E2].
  apply subs_sorted; auto.
  - rewrite E1; apply sort_levels_sorted.
  - rewrite Forall_forall in *. intros p Hp. apply Hd.
    apply (Permutation_in _ (Permutation_sym (sort_levels_perm order))). rewrite <- E1. apply in_map; auto.
  - intros a Ha Hda. rewrite E1. apply (Permutation_in _ (sort_levels_perm order)); auto.
Qed.
Theorem diff_to_symb_expr_ok order e :
  (exists e', diff_to_symb_expr order e = Ok e') <->
  (forall n k, In (Dyn n (S k)) order -> n <> ""%string /\ n <> "q"%string).
Proof.
  assert (D : forall a, (exists s, diff_to_symb a = Ok s) <-> (forall n k, a = Dyn n (S k) -> n <> ""%string /\ n <> "q"%string)).
  { intros [s|n [|k]]; [split; [discriminate|intros; eexists; reflexivity]| split; [discriminate|intros; eexists; reflexivity]|].
    cbn. destruct n as [|c r]; [cbn; split; [intros [? ?]; discriminate|intros H; destruct (H _ _ eq_refl); congruence]|].
    cbn. destruct (Ascii.eqb_spec c "q"%char) as [->|Hc]; cbn.
    - destruct r as [|d r]; cbn.
      + split; [intros [? ?]; discriminate|intros H; destruct (H _ _ eq_refl); congruence].
      + split; [|eauto]. intros _ n k' E; injection E as <- _. split; discriminate.
    - split; [|eauto]. intros _ n k' E; injection E as <- _. split; [discriminate|congruence]. }
  assert (M : forall l, (exists m, mapm (fun a => do s <- diff_to_symb a; Ok (a, Static s)) l = Ok m) <-> forall a, In a l -> exists s, diff_to_symb a = Ok s).
  { induction l as [|a l IH]; cbn; [split; [tauto|eauto]|]. split.
    - intros [m H]. destruct (diff_to_symb a) eqn:E; cbn in H; [|discriminate].
      destruct (mapm _ l) as [m'|] eqn:E2; cbn in H; [|discriminate].
      intros b [<-|Hb]; [eauto|]. apply IH; eauto.
    - intros H. destruct (H a (or_introl eq_refl)) as [s ->]; cbn.
      destruct (proj2 IH) as [m ->]; [auto|]. cbn; eauto. }
  unfold diff_to_symb_expr. split.
  - intros [e' H] n k Hin. destruct (mapm _ _) as [m|] eqn:E; cbn in H; [|discriminate].
    pose proof (proj1 (M _) (ex_intro _ m E)) as Q.
    apply (proj1 (D (Dyn n (S k))) (Q _ (Permutation_in _ (sort_levels_perm order) Hin)) n k eq_refl).
  - intros H. destruct (proj2 (M (sort_levels order))) as [m ->].
    + intros a Ha. apply D. intros n k ->. apply (H n k), (Permutation_in _ (Permutation_sym (sort_levels_perm order)) Ha).
    + cbn; eauto.
Qed.

(** ** Names of derivatives *)
Lemma string_app_assoc a b c : ((a ++ b) ++ c = a ++ b ++ c)%string.
Proof. induction a; cbn; congruence. Qed.
Lemma contains_dots n k : contains "_dot" (n ++ dots (S k))%string.
Proof. exists n, (dots k). reflexivity. Qed.
Lemma string_app_nil a : (a ++ "" = a)%string.
Proof. induction a; cbn; congruence. Qed.
Lemma app_inj_l a b c : (a ++ b = a ++ c)%string -> b = c.
Proof. induction a; cbn; intros H; auto. injection H; auto. Qed.
Lemma begins_cons c d s : begins c (String d s) <-> c = d.
Proof. split; [intros [r E]; injection E; auto|intros ->; exists s; reflexivity]. Qed.
Lemma contains_app_l p a s : contains p s -> contains p (a ++ s).
Proof. intros (x & y & ->). exists (a ++ x)%string, y. rewrite string_app_assoc; auto. Qed.
Lemma contains_tail p c s : contains p s -> contains p (String c s).
Proof. apply (contains_app_l p (String c "")). Qed.
Lemma dots_snoc k : (dots k ++ "_dot" = "_dot" ++ dots k)%string.
Proof. induction k; cbn; auto. cbn in IHk. rewrite IHk. reflexivity. Qed.

(** Two clean names followed by dots. *)
Lemma app_cases a b c d : (a ++ b = c ++ d)%string ->
  (exists x, c = a ++ x /\ b = x ++ d)%string \/ (exists x, a = c ++ x /\ d = x ++ b)%string.
Proof.
  revert c; induction a as [|h a IH]; intros c H; cbn in *.
  - left; exists c; auto.
  - destruct c as [|h' c]; cbn in *.
    + right; exists (String h a); auto.
    + injection H as -> H. destruct (IH _ H) as [(x & -> & ->)|(x & -> & ->)]; [left|right]; exists x; auto.
Qed.
Lemma string_length_app a b : String.length (a ++ b) = (String.length a + String.length b)%nat.
Proof. induction a; cbn; auto. Qed.
Lemma dots_length k : String.length (dots k) = (4 * k)%nat.
Proof. induction k; cbn [dots]; auto. rewrite string_length_app, IHk. cbn [String.length]. lia. Qed.
Lemma dots_inj j k : dots j = dots k -> j = k.
Proof. intros H. assert (E : String.length (dots j) = String.length (dots k)) by (rewrite H; auto). rewrite !dots_length in E. lia. Qed.
Lemma dots_inj_app x j k : (dots j = x ++ dots k)%string -> (x = ""%string /\ j = k) \/ begins "_" x.
Proof.
  destruct x as [|c x]; cbn; intros H; [left; split; auto; apply dots_inj; auto|].
  destruct j; cbn in H; [discriminate|]. injection H as <- H. right; exists x; auto.
Qed.
(** A prefix of dots that is a whole number of times "_dot", or leaves a rest
    that contains none. *)
Lemma dots_split x j k : (dots j = x ++ dots k)%string -> x = dots (j - k) /\ (k <= j)%nat.
Proof.
  intros H. assert (L : (4 * j = String.length x + 4 * k)%nat).
  { rewrite <- !dots_length, <- string_length_app, H; auto. }
  assert (Hk : (k <= j)%nat) by lia. split; auto.
  assert (E : (x ++ dots k = dots (j - k) ++ dots k)%string).
  { rewrite <- H. clear - Hk. replace j with ((j - k) + k)%nat at 1 by lia.
    generalize (j - k)%nat; intros i; induction i; cbn; auto. cbn. rewrite IHi; auto. }
  assert (EL : String.length x = String.length (dots (j - k))) by (rewrite dots_length; lia).
  clear - E EL. revert E EL. generalize (dots (j - k)) as y. induction x as [|c x IH]; intros [|d y] E EL; cbn in *; try lia; auto.
  injection E as -> E. f_equal. apply IH; auto.
Qed.
Lemma clean_dots a b j k : ~ contains "_dot" a -> ~ contains "_dot" b ->
  (a ++ dots j = b ++ dots k)%string -> a = b /\ j = k.
Proof.
  intros Ha Hb H. destruct (app_cases _ _ _ _ H) as [(x & -> & E)|(x & -> & E)].
  - destruct (dots_split _ _ _ E) as [-> Hk]. destruct (j - k)%nat as [|i] eqn:F.
    + split; [rewrite string_app_nil; auto|lia].
    + exfalso; apply Hb, contains_dots.
  - destruct (dots_split _ _ _ E) as [-> Hk]. destruct (k - j)%nat as [|i] eqn:F.
    + split; [rewrite string_app_nil; auto|lia].
    + exfalso; apply Ha, contains_dots.
Qed.

Definition qname (n : string) : bool := match q_named n with Ok b => b | _ => false end.
Lemma q_named_ok n : n <> ""%string -> n <> "q"%string -> q_named n = Ok (qname n).
Proof.
  intros H1 H2. unfold qname. destruct n as [|c r]; [congruence|]. cbn.
  destruct (Ascii.eqb_spec c "q") as [->|]; cbn; auto.
  destruct r; [congruence|]; auto.
Qed.
Lemma qname_begins n : qname n = true -> exists d r, n = String "q" (String d r) /\ (d = "_"%char \/ digit d = true).
Proof.
  unfold qname, q_named. destruct n as [|c r]; [discriminate|].
  destruct (Ascii.eqb_spec c "q") as [->|]; cbn; [|discriminate].
  destruct r as [|d r]; [discriminate|]. intros H. exists d, r; split; auto.
  apply Bool.orb_true_iff in H; destruct H as [H|H]; auto. left; apply Ascii.eqb_eq; auto.
Qed.
Lemma symb_clean n k : clean_name n ->
  diff_to_symb (Dyn n k) = Ok (match k with
                               | O => n
                               | S O => if qname n then ("v" ++ tail1 n) else (n ++ dots 1)
                               | S (S k') => if qname n then ("a" ++ dots k' ++ tail1 n) else (n ++ dots k)
                               end)%string.
Proof.
  intros (H1 & H2 & _). destruct k as [|[|k]]; cbn [diff_to_symb]; [reflexivity| |].
  - rewrite q_named_ok by auto; cbn. destruct (qname n); auto.
  - rewrite q_named_ok by auto; cbn. destruct (qname n); auto. destruct k; auto.
Qed.
(** dots followed by a tail "_..." or digit... that contains no "_dot" *)
Lemma dots_tail_inj j k a b :
  ~ contains "_dot" a -> ~ contains "_dot" b ->
  (dots j ++ a = dots k ++ b)%string -> j = k /\ a = b.
Proof.
  revert k; induction j as [|j IH]; intros k Ha Hb H.
  - destruct k as [|k]; [cbn in H; auto|]. exfalso; apply Ha. cbn [dots append] in H. rewrite H.
    exists ""%string, (dots k ++ b)%string. cbn [append dots]. reflexivity.
  - destruct k as [|k].
    + exfalso; apply Hb. cbn [dots] in H. exists ""%string, (dots j ++ a)%string.
      rewrite <- string_app_assoc. symmetry; exact H.
    + cbn [dots] in H. rewrite !string_app_assoc in H. apply app_inj_l in H.
      destruct (IH k Ha Hb H); auto.
Qed.
Lemma clean_tail n : clean_name n -> ~ contains "_dot" (tail1 n).
Proof.
  intros (H & _ & _ & _ & Hd). destruct n as [|c r]; [congruence|]. cbn. intros Hc; apply Hd, contains_tail; auto.
Qed.
Lemma begins_app c n s : n <> ""%string -> begins c (n ++ s) -> begins c n.
Proof. intros H [r E]. destruct n as [|d n]; [congruence|]. cbn in E; injection E as -> _. exists n; auto. Qed.
Lemma clean_not_va n s : clean_name n -> ~ begins "v" (n ++ s) /\ ~ begins "a" (n ++ s).
Proof. intros (H & _ & Hv & Ha & _). split; intros B; [apply Hv|apply Ha]; eapply begins_app; eauto. Qed.
Lemma v_begins s : begins "v" ("v" ++ s). Proof. exists s; reflexivity. Qed.
Lemma a_begins s : begins "a" ("a" ++ s). Proof. exists s; reflexivity. Qed.
Lemma va_not s s' : ("v" ++ s <> "a" ++ s')%string. Proof. discriminate. Qed.

Lemma symb_dyn_inj n m j k s : clean_name n -> clean_name m ->
  diff_to_symb (Dyn n j) = Ok s -> diff_to_symb (Dyn m k) = Ok s -> n = m /\ j = k.
Proof.
  intros Hn Hm A B. rewrite symb_clean in A, B by auto. injection A as A. injection B as B.
  pose proof (clean_tail _ Hn) as Tn. pose proof (clean_tail _ Hm) as Tm.
  assert (Q : forall x, qname x = true -> x = String "q" (tail1 x)).
  { intros x Hx; destruct (qname_begins _ Hx) as (d & r & -> & _); reflexivity. }
  assert (Dn : ~ contains "_dot" n) by apply Hn. assert (Dm : ~ contains "_dot" m) by apply Hm.
  assert (Vn : forall i, ~ begins "v" (n ++ dots i)) by (intros; apply clean_not_va; auto).
  assert (An : forall i, ~ begins "a" (n ++ dots i)) by (intros; apply clean_not_va; auto).
  assert (Vm : forall i, ~ begins "v" (m ++ dots i)) by (intros; apply clean_not_va; auto).
  assert (Am : forall i, ~ begins "a" (m ++ dots i)) by (intros; apply clean_not_va; auto).
  assert (NORM : forall x l, match l with
       | O => x
       | S O => if qname x then ("v" ++ tail1 x) else (x ++ dots 1)
       | S (S k') => if qname x then ("a" ++ dots k' ++ tail1 x) else (x ++ dots l)
       end%string = (if (qname x && (1 <=? l)%nat)%bool then (if (l =? 1)%nat then ("v" ++ tail1 x) else ("a" ++ dots (l - 2) ++ tail1 x)) else x ++ dots l)%string).
  { intros x [|[|l]]; cbn [Nat.leb Nat.eqb andb]; rewrite ?Bool.andb_true_r, ?Bool.andb_false_r.
    - cbn; rewrite string_app_nil; auto.
    - reflexivity.
    - replace (S (S l) - 2)%nat with l by lia. reflexivity. }
  rewrite NORM in A, B. rewrite <- B in A. clear B NORM s.
  destruct (qname n && (1 <=? j)%nat)%bool eqn:C1; destruct (qname m && (1 <=? k)%nat)%bool eqn:C2.
  - apply Bool.andb_true_iff in C1, C2. destruct C1 as [Q1 L1], C2 as [Q2 L2].
    apply Nat.leb_le in L1, L2.
    destruct (Nat.eqb_spec j 1), (Nat.eqb_spec k 1).
    + cbn in A; injection A as A. split; [|lia]. rewrite (Q n Q1), (Q m Q2), A; auto.
    + discriminate.
    + discriminate.
    + cbn in A; injection A as A. destruct (dots_tail_inj _ _ _ _ Tn Tm A) as [E1 E2].
      split; [|lia]. rewrite (Q n Q1), (Q m Q2), E2; auto.
  - exfalso. destruct (j =? 1)%nat.
    + apply (Vm k). rewrite <- A. apply v_begins.
    + apply (Am k). rewrite <- A. apply a_begins.
  - exfalso. destruct (k =? 1)%nat.
    + apply (Vn j). rewrite A. apply v_begins.
    + apply (An j). rewrite A. apply a_begins.
  - apply clean_dots; auto.
Qed.
(** Distinct dynamic symbols get distinct symbols; and a plain symbol with a
    clean name is only met by the dynamic symbol of the same name. *)
Theorem diff_to_symb_injective a b s : clean a -> clean b ->
  diff_to_symb a = Ok s -> diff_to_symb b = Ok s ->
  a = b \/ (exists n, (a = Static n /\ b = Dyn n 0) \/ (a = Dyn n 0 /\ b = Static n)).
Proof.
  destruct a as [n|n j], b as [m|m k]; cbn [clean]; intros Hn Hm A B.
  - left; cbn in *; congruence.
  - right; exists n; left. split; auto. destruct (symb_dyn_inj n m 0 k s Hn Hm A B) as [-> <-]; auto.
  - right; exists m; right. split; auto. destruct (symb_dyn_inj n m j 0 s Hn Hm A B) as [-> ->]; auto.
  - left. destruct (symb_dyn_inj n m j k s Hn Hm A B) as [-> ->]; auto.
Qed.

(** ** standard notation *)
Lemma std_name_form n n' : std_name n = Some n' ->
  exists c t, n = String c t /\ isdigit t = true /\ n' = String c (String "_" t).
Proof.
  destruct n as [|c t]; cbn; [discriminate|].
  destruct (isdigit t) eqn:D; [|discriminate].
  assert (G : forall d, (c =? d)%char = true -> c = d) by (intros d H; apply Ascii.eqb_eq; auto).
  repeat match goal with |- context[(c =? ?d)%char] => destruct (c =? d)%char eqn:? end; intros E; try discriminate;
  injection E as <-; exists c, t; repeat split; auto; match goal with H : (c =? ?d)%char = true |- _ => rewrite (G _ H); reflexivity end.
Qed.
Lemma std_name_idem n n' : std_name n = Some n' -> std_name n' = None.
Proof.
  intros H; destruct (std_name_form _ _ H) as (c & t & _ & _ & ->). reflexivity.
Qed.
Lemma subs_atom_static_old n n' a :
  subs_atom (Static n) (Static n') a = Var (if atom_eq_dec a (Static n) then Static n' else a).
Proof. unfold subs_atom. destruct (atom_eq_dec a (Static n)); auto. Qed.
Lemma standard_notation_value order : forall e,
  (forall n, In (Static n) (atoms e) -> std_name n <> None -> In n order) ->
  standard_notation order e = rename std e.
Proof.
  induction order as [|n order IH]; intros e H.
  - cbn. rewrite rename_bind. rewrite <- (bind_var e) at 1. apply bind_ext. intros [m|m k] Ha; auto. cbn. destruct (std_name m) eqn:E; auto.
    destruct (H m Ha); congruence.
  - unfold standard_notation in *. cbn [flat_map]. destruct (std_name n) as [n'|] eqn:E.
    + cbn [app subs fold_left fst snd]. unfold subs in IH. rewrite IH.
      * rewrite !rename_bind, subs1_bind, bind_bind. apply bind_ext. intros a Ha. cbv beta. rewrite subs_atom_static_old. cbn.
        destruct (atom_eq_dec a (Static n)) as [->|]; auto.
        cbn. rewrite E. rewrite (std_name_idem _ _ E). reflexivity.
      * intros m Hm Hs. destruct (atoms_subs1 _ _ _ _ Hm) as (a & Ha & Hma).
        rewrite subs_atom_static_old in Hma. cbn in Hma. destruct Hma as [Hma|[]].
        destruct (atom_eq_dec a (Static n)) as [->|Hne].
        -- injection Hma as <-. rewrite (std_name_idem _ _ E) in Hs; congruence.
        -- subst a. destruct (H m Ha Hs) as [<-|]; [congruence|auto].
    + cbn [app]. apply IH. intros m Hm Hs. destruct (H m Hm Hs) as [<-|]; [congruence|auto].
Qed.

(** ** q_2_x *)
Definition shift (p : atom * atom) (a : atom) : atom :=
  match fst p, snd p, a with
  | Dyn n k, Dyn n' k', Dyn m j => if ((n =? m)%string && (k <=? j)%nat)%bool then Dyn n' (k' + (j - k)) else a
  | _, _, _ => a
  end.
Lemma subs_atom_shift n k n' k' a : subs_atom (Dyn n k) (Dyn n' k') a = Var (shift (Dyn n k, Dyn n' k') a).
Proof.
  unfold subs_atom, shift; cbn [fst snd]. destruct (atom_eq_dec a (Dyn n k)) as [->|Hne].
  - rewrite String.eqb_refl, Nat.leb_refl; cbn. repeat f_equal; lia.
  - destruct a as [m|m j]; auto. destruct (String.eqb_spec n m) as [->|]; auto. cbn [andb].
    destruct (Nat.ltb_spec k j), (Nat.leb_spec k j); auto; try lia.
    exfalso; apply Hne; f_equal; lia.
Qed.
Lemma subs_shift l : Forall (fun p => is_dyn (fst p) = true /\ is_dyn (snd p) = true) l ->
  forall e, subs l e = rename (fold_left (fun a p => shift p a) l) e.
Proof.
  induction l as [|[o n] l IH]; intros H e; cbn.
  - rewrite rename_bind. symmetry; apply bind_var.
  - inversion H as [|? ? [H1 H2] H']; subst; cbn in *.
    unfold subs in IH. rewrite (IH H'), !rename_bind, subs1_bind, bind_bind. apply bind_ext. intros a _.
    destruct o as [|? ?]; [discriminate|]. destruct n as [|? ?]; [discriminate|].
    rewrite subs_atom_shift; reflexivity.
Qed.

Lemma str_nat_inj i j : str_nat i = str_nat j -> i = j.
Proof.
  unfold str_nat; intros H.
  assert (E : NilZero.uint_of_string (NilZero.string_of_uint (Nat.to_uint i)) = NilZero.uint_of_string (NilZero.string_of_uint (Nat.to_uint j))) by (rewrite H; auto).
  assert (N : forall n, Nat.to_uint n <> Decimal.Nil).
  { intros n F. pose proof (Unsigned.of_to n) as G. rewrite F in G; cbn in G; subst n; discriminate F. }
  rewrite !NilZero.usu in E by auto.
  injection E as E. apply (f_equal Nat.of_uint) in E. rewrite !Unsigned.of_to in E. auto.
Qed.
Lemma x_name_inj i j : x_name i = x_name j -> i = j.
Proof. unfold x_name; intros H; apply str_nat_inj. cbn in H. injection H; auto. Qed.

Lemma shift_other n k p' m j : n <> m -> shift (Dyn n k, p') (Dyn m j) = Dyn m j.
Proof. intros H. unfold shift; cbn [fst snd]. destruct p'; auto. destruct (String.eqb_spec n m); [congruence|reflexivity]. Qed.
Lemma fold_shift_other l m j :
  (forall p n k, In p l -> fst p = Dyn n k -> n <> m) -> Forall (fun p => is_dyn (fst p) = true) l ->
  fold_left (fun a p => shift p a) l (Dyn m j) = Dyn m j.
Proof.
  induction l as [|[o n] l IH]; intros H Hd; cbn; auto.
  inversion Hd as [|? ? Hd1 Hd2]; subst. destruct o as [|on ok]; [discriminate|].
  rewrite shift_other by (eapply (H (Dyn on ok, n)); [left; reflexivity|reflexivity]).
  apply IH; auto. intros; eapply H; [right|]; eauto.
Qed.

(** One pass: coordinates [names] (from index i) at level [lv], to x_(i + c). *)
Definition pass (lv c i : nat) (names : list string) : list (atom * atom) :=
  map (fun p => (Dyn (snd p) lv, Dyn (x_name (c + fst p)) 0)) (combine (seq i (length names)) names).
Lemma pass_cons lv c i n names : pass lv c i (n :: names) = (Dyn n lv, Dyn (x_name (c + i)) 0) :: pass lv c (S i) names.
Proof. reflexivity. Qed.
Lemma pass_in lv c i names p : In p (pass lv c i names) -> exists n, In n names /\ fst p = Dyn n lv.
Proof.
  unfold pass. rewrite in_map_iff. intros ([j n] & <- & H). exists n; split; auto. apply in_combine_r in H; auto.
Qed.
Lemma pass_dyn lv c i names : Forall (fun p => is_dyn (fst p) = true) (pass lv c i names).
Proof. rewrite Forall_forall. intros p Hp. destruct (pass_in _ _ _ _ _ Hp) as (n & _ & ->); auto. Qed.
Lemma fold_pass_other lv c i names m j : ~ In m names ->
  fold_left (fun a p => shift p a) (pass lv c i names) (Dyn m j) = Dyn m j.
Proof.
  intros H. apply fold_shift_other; [|apply pass_dyn].
  intros p n k Hp E. destruct (pass_in _ _ _ _ _ Hp) as (n' & Hn & E'). rewrite E in E'. injection E' as -> ->. intros ->; auto.
Qed.
Fixpoint go_pass (lv c : nat) (m : string) (j i : nat) (names : list string) : atom :=
  match names with
  | [] => Dyn m j
  | q :: names' => if string_dec m q then (if (lv <=? j)%nat then Dyn (x_name (c + i)) (j - lv) else Dyn m j) else go_pass lv c m j (S i) names'
  end.
Lemma fold_pass lv c names : forall i m j,
  NoDup names -> (forall k, In (x_name k) names -> False) \/ (forall k, (i <= k < i + length names)%nat -> ~ In (x_name (c + k)) names) ->
  fold_left (fun a p => shift p a) (pass lv c i names) (Dyn m j) =
  go_pass lv c m j i names.
Proof.
  induction names as [|q names IH]; intros i m j Hn Hx; [reflexivity|].
  rewrite pass_cons. cbn [fold_left go_pass]. inversion Hn as [|? ? Hq Hn']; subst.
  assert (Hx' : (forall k, In (x_name k) names -> False) \/ (forall k, (S i <= k < S i + length names)%nat -> ~ In (x_name (c + k)) names)).
  { destruct Hx as [Hx|Hx]; [left; intros k Hk; apply (Hx k); right; auto|].
    right; intros k Hk Hin. apply (Hx k); [cbn [length]; lia|right; auto]. }
  destruct (string_dec m q) as [->|Hmq].
  - unfold shift at 2; cbn [fst snd]. rewrite String.eqb_refl; cbn [andb].
    destruct (Nat.leb_spec lv j).
    + replace (0 + (j - lv))%nat with (j - lv)%nat by lia.
      apply fold_pass_other. destruct Hx as [Hx|Hx]; intros Hin; [apply (Hx (c + i)%nat); right; auto|].
      apply (Hx i); [cbn [length]; lia|right; auto].
    + rewrite fold_pass_other; auto.
  - rewrite shift_other by congruence. apply IH; auto.
Qed.

Lemma nth_map_seq_pairs {A} (f : nat -> A) (names : list string) lv i :
  map (fun j => (nth j (map (fun n => Dyn n lv) names) (Static ""), f (i + j)%nat)) (seq 0 (length names)) =
  map (fun p => (Dyn (snd p) lv, f (fst p))) (combine (seq i (length names)) names).
Proof.
  revert i; induction names as [|q names IH]; intros i; [reflexivity|].
  cbn [length seq map combine nth fst snd]. f_equal; [rewrite Nat.add_0_r; reflexivity|].
  rewrite <- (IH (S i)), <- seq_shift, map_map. apply map_ext. intros j. cbn [nth map]. rewrite Nat.add_succ_r; reflexivity.
Qed.
Lemma q_2_x_list names e e' :
  q_2_x e (map (fun n => Dyn n 0) names) (map (fun n => Dyn n 1) names) = Ok e' ->
  e' = subs (pass 1 (length names) 0 names ++ pass 0 0 0 names) e.
Proof.
  unfold q_2_x. rewrite !map_length, Nat.eqb_refl. cbn [negb]. intros H; injection H as <-.
  f_equal. f_equal.
  - unfold pass. rewrite <- (nth_map_seq_pairs (fun i => Dyn (x_name (length names + i)) 0)). apply map_ext; reflexivity.
  - unfold pass. cbn [Nat.add]. rewrite <- (nth_map_seq_pairs (fun i => Dyn (x_name i) 0)). reflexivity.
Qed.

Lemma go_pass_out lv c m j names : forall i, ~ In m names -> go_pass lv c m j i names = Dyn m j.
Proof.
  induction names as [|q names IH]; intros i H; cbn; auto.
  destruct (string_dec m q) as [->|]; [destruct H; left; auto|]. apply IH. intros F; apply H; right; auto.
Qed.
Lemma x_for_from_0 n m names : forall i, x_for_from i n names m 0 = go_pass 0 0 m 0 i names.
Proof. induction names as [|q names IH]; intros i; cbn; auto. destruct (string_dec m q); auto. Qed.
Lemma x_for_from_S n m j names : forall i, x_for_from i n names m (S j) = go_pass 1 n m (S j) i names.
Proof. induction names as [|q names IH]; intros i; cbn; auto. destruct (string_dec m q); auto. rewrite Nat.sub_0_r; auto. Qed.
Lemma go_pass_0 c m names : forall i, go_pass 1 c m 0 i names = Dyn m 0.
Proof. induction names as [|q names IH]; intros i; cbn; auto. destruct (string_dec m q); auto. Qed.
Lemma go_pass_cases lv c m j names : forall i,
  (go_pass lv c m j i names = Dyn m j) \/ (exists k, (i <= k < i + length names)%nat /\ go_pass lv c m j i names = Dyn (x_name (c + k)) (j - lv)).
Proof.
  induction names as [|q names IH]; intros i; cbn [go_pass length]; auto.
  destruct (string_dec m q).
  - destruct (lv <=? j)%nat; auto. right; exists i; split; auto; lia.
  - destruct (IH (S i)) as [E|(k & Hk & E)]; auto. right; exists k; split; auto; lia.
Qed.

(** No target of the pass is the name of a later coordinate. *)
Fixpoint pass_ok (c i : nat) (names : list string) : Prop :=
  match names with [] => True | _ :: names' => ~ In (x_name (c + i)) names' /\ pass_ok c (S i) names' end.
Lemma fold_pass_clear lv c names : forall i m j, NoDup names -> pass_ok c i names ->
  fold_left (fun a p => shift p a) (pass lv c i names) (Dyn m j) = go_pass lv c m j i names.
Proof.
  induction names as [|q names IH]; intros i m j Hn Hx; [reflexivity|].
  rewrite pass_cons. cbn [fold_left go_pass]. inversion Hn as [|? ? Hq Hn']; subst. destruct Hx as [Hx Hx'].
  destruct (string_dec m q) as [->|Hmq].
  - unfold shift at 2; cbn [fst snd]. rewrite String.eqb_refl; cbn [andb].
    destruct (Nat.leb_spec lv j).
    + replace (0 + (j - lv))%nat with (j - lv)%nat by lia. apply fold_pass_other. exact Hx.
    + rewrite fold_pass_other; auto.
  - rewrite shift_other by congruence. apply IH; auto.
Qed.
Lemma pass_ok_nth c names : forall i, (forall a b, (a < b < length names)%nat -> nth b names ""%string <> x_name (c + (i + a))) -> pass_ok c i names.
Proof.
  induction names as [|q names IH]; intros i H; cbn [pass_ok]; [exact I|]. split.
  - intros F. apply (In_nth _ _ ""%string) in F. destruct F as (b & Hb & E). apply (H 0%nat (S b)); [cbn [length]; lia|]. cbn [nth]. rewrite E. f_equal. lia.
  - apply IH. intros a b Hab E. apply (H (S a) (S b)); [cbn [length]; lia|]. cbn [nth]. rewrite E. f_equal. lia.
Qed.
Theorem q_2_x_clear names e e' :
  NoDup names -> x_clear names ->
  q_2_x e (map (fun n => Dyn n 0) names) (map (fun n => Dyn n 1) names) = Ok e' ->
  e' = rename (x_for names) e.
Proof.
  intros Hn [Hx Hv] H. rewrite (q_2_x_list _ _ _ H), subs_shift.
  2:{ rewrite Forall_forall. intros p Hp. apply in_app_or in Hp.
      destruct Hp as [Hp|Hp]; unfold pass in Hp; rewrite in_map_iff in Hp; destruct Hp as (? & <- & _); auto. }
  rewrite !rename_bind. apply bind_ext. intros a _. f_equal. rewrite fold_left_app.
  destruct a as [s|m j].
  - assert (S0 : forall l, fold_left (fun a p => shift p a) l (Static s) = Static s).
    { induction l as [|[o n] l IH]; cbn; auto. unfold shift at 2; cbn. destruct o, n; auto. }
    rewrite !S0. reflexivity.
  - rewrite fold_pass_clear; [|assumption|].
    2:{ apply pass_ok_nth. intros a b Hab E. apply (Hv a); [lia|]. rewrite Nat.add_0_l in E. rewrite <- E. apply nth_In. lia. }
    cbn [x_for].
    assert (P0 : forall m j, fold_left (fun a p => shift p a) (pass 0 0 0 names) (Dyn m j) = go_pass 0 0 m j 0 names).
    { intros m' j'. apply fold_pass_clear; auto. apply pass_ok_nth. intros a b Hab. cbn [Nat.add]. now apply Hx. }
    destruct j as [|j].
    + rewrite go_pass_0, P0, x_for_from_0. reflexivity.
    + rewrite x_for_from_S. destruct (in_dec string_dec m names) as [Hm|Hm].
      * destruct (go_pass_cases 1 (length names) m (S j) names 0) as [E|(k & Hk & E)].
        -- exfalso. clear - Hm E Hx. assert (G : forall l i, In m l -> go_pass 1 (length names) m (S j) i l = Dyn m (S j) -> False).
           { induction l as [|q l IH]; intros i Hin F; cbn in *; [auto|].
             destruct (string_dec m q); [|destruct Hin; [congruence|eapply IH; eauto]].
             injection F as _ F. lia. }
           eapply G; eauto.
        -- rewrite E, P0. apply go_pass_out. apply Hv. lia.
      * rewrite !go_pass_out by auto. rewrite P0, go_pass_out; auto.
Qed.
Lemma clear_without names : (forall i, (i < 2 * length names)%nat -> ~ In (x_name i) names) -> x_clear names.
Proof.
  intros H. split.
  - intros i j Hij E. apply (H i); [lia|]. rewrite <- E. apply nth_In. lia.
  - intros i Hi. apply H. lia.
Qed.
Theorem q_2_x_value names e e' :
  NoDup names ->
  (forall i, (i < 2 * length names)%nat -> ~ In (x_name i) names) ->
  q_2_x e (map (fun n => Dyn n 0) names) (map (fun n => Dyn n 1) names) = Ok e' ->
  e' = rename (x_for names) e.
Proof. intros Hn Hx. apply q_2_x_clear; auto. now apply clear_without. Qed.

(** ... and only then. *)
Lemma shift_level1 n p' m : shift (Dyn n 1, p') (Dyn m 0) = Dyn m 0.
Proof. unfold shift; cbn [fst snd]. destruct p'; auto. destruct (String.eqb n m); reflexivity. Qed.
Lemma fold_pass1_level0 c names : forall i m, fold_left (fun a p => shift p a) (pass 1 c i names) (Dyn m 0) = Dyn m 0.
Proof. induction names as [|q names IH]; intros i m; [reflexivity|]. rewrite pass_cons. cbn [fold_left]. rewrite shift_level1. apply IH. Qed.
Lemma fold_pass0_in names : forall i m, In m names ->
  exists k, (i <= k < i + length names)%nat /\ fold_left (fun a p => shift p a) (pass 0 0 i names) (Dyn m 0) = Dyn (x_name k) 0.
Proof.
  induction names as [|q names IH]; intros i m Hm; [destruct Hm|]. rewrite pass_cons. cbn [fold_left length].
  destruct (string_dec m q) as [->|Hne].
  - unfold shift at 2; cbn [fst snd]. rewrite String.eqb_refl; cbn [andb Nat.leb Nat.sub Nat.add].
    destruct (in_dec string_dec (x_name i) names) as [Hi|Hi].
    + destruct (IH (S i) (x_name i) Hi) as (k & Hk & E). exists k. split; [lia|exact E].
    + exists i. split; [lia|]. now apply fold_pass_other.
  - rewrite shift_other by congruence. destruct Hm as [->|Hm]; [congruence|]. destruct (IH (S i) m Hm) as (k & Hk & E). exists k. split; [lia|exact E].
Qed.
Lemma pass_app lv c names : forall names' i, pass lv c i (names ++ names') = pass lv c i names ++ pass lv c (i + length names) names'.
Proof.
  induction names as [|q names IH]; intros names' i; cbn [app length]; [now rewrite Nat.add_0_r|]. rewrite !pass_cons, IH. cbn [app].
  do 3 f_equal. lia.
Qed.
Lemma q_2_x_var names m j e' : q_2_x (Var (Dyn m j)) (map (fun n => Dyn n 0) names) (map (fun n => Dyn n 1) names) = Ok e' ->
  e' = Var (fold_left (fun a p => shift p a) (pass 0 0 0 names) (fold_left (fun a p => shift p a) (pass 1 (length names) 0 names) (Dyn m j))).
Proof.
  intros H. rewrite (q_2_x_list _ _ _ H), subs_shift.
  2:{ rewrite Forall_forall. intros p Hp. apply in_app_or in Hp.
      destruct Hp as [Hp|Hp]; unfold pass in Hp; rewrite in_map_iff in Hp; destruct Hp as (? & <- & _); auto. }
  cbn [rename]. rewrite fold_left_app. reflexivity.
Qed.
Lemma split_nth (names : list string) i : (i < length names)%nat -> exists a b, names = a ++ nth i names ""%string :: b /\ length a = i.
Proof. intros H. destruct (nth_split names ""%string H) as (a & b & E & L). eauto. Qed.
Lemma x_for_at names : NoDup names -> forall i0 k i lev, (i < length names)%nat ->
  x_for_from i0 k names (nth i names ""%string) lev = match lev with O => Dyn (x_name (i0 + i)) 0 | S l => Dyn (x_name (k + (i0 + i))) l end.
Proof.
  induction 1 as [|q names Hq Hn IH]; intros i0 k i lev Hi; cbn in Hi; [lia|].
  destruct i as [|i]; cbn [nth x_for_from].
  - destruct (string_dec q q); [|congruence]. rewrite Nat.add_0_r. reflexivity.
  - destruct (string_dec (nth i names ""%string) q) as [E|_].
    + exfalso. apply Hq. rewrite <- E. apply nth_In. lia.
    + rewrite IH by lia. replace (S i0 + i)%nat with (i0 + S i)%nat by lia. reflexivity.
Qed.
Theorem q_2_x_exactly names : NoDup names ->
  ((forall e, q_2_x e (map (fun n => Dyn n 0) names) (map (fun n => Dyn n 1) names) = Ok (rename (x_for names) e)) <-> x_clear names).
Proof.
  intros Hn. split.
  - intros H. split.
    + intros i j Hij Ej. specialize (H (Var (Dyn (nth i names ""%string) 0))). apply q_2_x_var in H. rewrite fold_pass1_level0 in H.
      cbn [rename x_for] in H. rewrite x_for_at in H by (auto; lia). injection H as H. cbn [Nat.add] in H.
      destruct (split_nth names i) as (a & b & E & L); [lia|]. set (q := nth i names ""%string) in *.
      rewrite E, pass_app, fold_left_app in H. rewrite fold_pass_other in H.
      2:{ rewrite E in Hn. apply NoDup_remove_2 in Hn. intros F. apply Hn. apply in_or_app. now left. }
      rewrite pass_cons in H. cbn [fold_left Nat.add] in H. rewrite L in H. unfold shift at 2 in H; cbn [fst snd] in H. rewrite String.eqb_refl in H. cbn [andb Nat.leb Nat.sub Nat.add] in H.
      assert (Hb : In (x_name i) b).
      { rewrite <- Ej. rewrite E. rewrite app_nth2 by lia. destruct (j - length a)%nat as [|d] eqn:Ed; [lia|]. cbn [nth]. apply nth_In.
        rewrite E, app_length in Hij. cbn [length] in Hij. lia. }
      destruct (fold_pass0_in b (S i) (x_name i) Hb) as (k & Hk & Ek). rewrite Ek in H. injection H as H. apply str_nat_inj in H. lia.
    + intros i Hi Hin. specialize (H (Var (Dyn (nth i names ""%string) 1))). apply q_2_x_var in H.
      cbn [rename x_for] in H. rewrite x_for_at in H by (auto; lia). injection H as H. cbn [Nat.add] in H.
      assert (E1 : fold_left (fun a p => shift p a) (pass 1 (length names) 0 names) (Dyn (nth i names ""%string) 1) = Dyn (x_name (length names + i)) 0).
      { destruct (split_nth names i) as (a & b & E & L); [lia|]. set (q := nth i names ""%string) in *. set (n := length names).
        rewrite E, pass_app, fold_left_app. rewrite fold_pass_other.
        2:{ rewrite E in Hn. apply NoDup_remove_2 in Hn. intros F. apply Hn. apply in_or_app. now left. }
        rewrite pass_cons. cbn [fold_left Nat.add]. rewrite L. unfold shift at 2; cbn [fst snd]. rewrite String.eqb_refl. cbn [andb Nat.leb Nat.sub Nat.add].
        apply fold_pass1_level0. }
      rewrite E1 in H. destruct (fold_pass0_in names 0 (x_name (length names + i)) Hin) as (k & Hk & Ek). rewrite Ek in H. injection H as H. apply str_nat_inj in H. lia.
  - intros C e. destruct (q_2_x e (map (fun n => Dyn n 0) names) (map (fun n => Dyn n 1) names)) as [e'|x] eqn:E.
    + f_equal. now apply q_2_x_clear.
    + exfalso. unfold q_2_x in E. rewrite !map_length, Nat.eqb_refl in E. discriminate.
Qed.
Lemma clear_two a b : b <> x_name 0 -> (forall k, (k = 2 \/ k = 3)%nat -> a <> x_name k /\ b <> x_name k) -> x_clear [a; b].
Proof.
  intros H1 H2. split.
  - intros i j H. cbn [length] in H. assert (i = 0 /\ j = 1)%nat as [-> ->] by lia. exact H1.
  - intros i Hi. cbn [length] in *. destruct (H2 (2 + i)%nat ltac:(lia)) as [A B]. intros [E|[E|[]]]; [now apply A|now apply B].
Qed.
Lemma clear_examples : x_clear ["q_0"; "q_1"]%string /\ x_clear ["x_0"; "x_1"]%string /\ x_clear ["x_1"; "q_0"]%string /\ ~ x_clear ["x_1"; "x_0"]%string.
Proof.
  split; [|split; [|split]]; try (apply clear_two; [discriminate|intros k [-> | ->]; split; discriminate]).
  intros [H _]. apply (H 0 1)%nat; [cbn; lia|reflexivity].
Qed.
Theorem q_2_x_error e qs qdots : q_2_x e qs qdots = Err AssertionError <-> length qs <> length qdots.
Proof.
  unfold q_2_x. destruct (Nat.eqb_spec (length qs) (length qdots)); cbn; split; intros; congruence.
Qed.

(** ** Sorting names *)
Definition slt (a b : string) : Prop := String_as_OT.lt a b.
Lemma leb_cases x y : (x <=? y)%string = true <-> (x = y \/ slt x y).
Proof.
  unfold String.leb, slt, String_as_OT.lt.
  change (String_as_OT.compare x y) with (String.compare x y). destruct (String.compare x y) eqn:E.
  - apply String.compare_eq_iff in E. subst; tauto.
  - tauto.
  - split; [discriminate|]. intros [->|F]; [|congruence].
    pose proof (String.compare_antisym y y) as A. rewrite E in A. discriminate A.
Qed.
Lemma slt_trans : forall x y z, slt x y -> slt y z -> slt x z.
Proof. intros x y z. apply (@StrictOrder_Transitive _ _ String_as_OT.lt_strorder). Qed.
Lemma slt_irrefl x : ~ slt x x.
Proof. apply (@StrictOrder_Irreflexive _ _ String_as_OT.lt_strorder). Qed.
Lemma leb_false x y : (x <=? y)%string = false -> slt y x.
Proof.
  intros H. destruct (String_as_OT.compare_spec y x) as [->|L|L]; auto.
  - assert ((x <=? x)%string = true) by (apply leb_cases; auto). congruence.
  - assert ((x <=? y)%string = true) by (apply leb_cases; right; auto). congruence.
Qed.
Lemma insert_s_perm x l : Permutation (x :: l) (insert_s x l).
Proof.
  induction l as [|y l IH]; cbn; auto. destruct (x <=? y)%string; auto.
  apply perm_trans with (y :: x :: l); constructor; auto.
Qed.
Lemma sorted_perm l : Permutation l (sorted l).
Proof. induction l; cbn; auto. apply perm_trans with (a :: sorted l); [constructor; auto|apply insert_s_perm]. Qed.
Lemma sorted_in x l : In x (sorted l) <-> In x l.
Proof. split; apply Permutation_in; [apply Permutation_sym|]; apply sorted_perm. Qed.
Definition sle (x y : string) : Prop := x = y \/ slt x y.
Lemma sle_trans x y z : sle x y -> sle y z -> sle x z.
Proof. intros [->|H1] [->|H2]; [left|right|right|right]; auto. eapply slt_trans; eauto. Qed.
Lemma insert_s_sorted x l : StronglySorted sle l -> StronglySorted sle (insert_s x l).
Proof.
  induction l as [|y l IH]; cbn; intros H; [repeat constructor|].
  inversion H as [|? ? H1 H2]; subst. destruct (x <=? y)%string eqn:E.
  - constructor; auto. constructor; [apply leb_cases; auto|].
    rewrite Forall_forall in *. intros z Hz. apply sle_trans with y; auto. apply leb_cases; auto.
  - constructor; auto. rewrite Forall_forall in *. intros z Hz.
    apply (Permutation_in _ (Permutation_sym (insert_s_perm x l))) in Hz. destruct Hz as [<-|Hz]; auto.
    right; apply leb_false; auto.
Qed.
Lemma sorted_sorted l : StronglySorted sle (sorted l).
Proof. induction l; cbn; [constructor|apply insert_s_sorted; auto]. Qed.
Lemma sorted_unique l m : StronglySorted sle l -> StronglySorted sle m -> Permutation l m -> l = m.
Proof.
  revert m; induction l as [|x l IH]; intros m Hl Hm P.
  - apply Permutation_nil in P; auto.
  - destruct m as [|y m]; [apply Permutation_sym, Permutation_nil in P; discriminate|].
    inversion Hl as [|? ? Hl1 Hl2]; inversion Hm as [|? ? Hm1 Hm2]; subst.
    assert (E : x = y).
    { assert (A : In x (y :: m)) by (apply (Permutation_in _ P); left; auto).
      assert (B : In y (x :: l)) by (apply (Permutation_in _ (Permutation_sym P)); left; auto).
      destruct A as [A|A]; auto. destruct B as [B|B]; auto.
      rewrite Forall_forall in *. destruct (Hl2 _ B) as [|L1]; auto. destruct (Hm2 _ A) as [|L2]; auto.
      exfalso; apply (slt_irrefl x); eapply slt_trans; eauto. }
    subst y. f_equal. apply IH; auto. apply Permutation_cons_inv in P; auto.
Qed.
Lemma sorted_perm_eq l m : Permutation l m -> sorted l = sorted m.
Proof.
  intros P. apply sorted_unique; try apply sorted_sorted.
  apply perm_trans with l; [apply Permutation_sym, sorted_perm|]. apply perm_trans with m; auto. apply sorted_perm.
Qed.
Lemma sorted_sorted_eq l : sorted (sorted l) = sorted l.
Proof. apply sorted_perm_eq, Permutation_sym, sorted_perm. Qed.

(** ** Classification *)
Lemma mem_s_spec x l : mem_s x l = true <-> In x l.
Proof.
  unfold mem_s. rewrite existsb_exists. split; [intros (y & H & E); apply String.eqb_eq in E; subst; auto|].
  intros H; exists x; split; auto. apply String.eqb_refl.
Qed.
Lemma mem_a_spec x l : mem_a x l = true <-> In (Static x) l.
Proof. unfold mem_a; destruct (in_dec atom_eq_dec (Static x) l); split; auto; discriminate. Qed.
Lemma add_in x l y : In y (add_if_not_there x l) <-> y = x \/ In y l.
Proof.
  unfold add_if_not_there. destruct (mem_s x l) eqn:E.
  - apply mem_s_spec in E. split; auto. intros [->|]; auto.
  - rewrite in_app_iff; cbn. split; intros [|]; auto. destruct H; auto; tauto.
Qed.
Lemma add_nodup x l : NoDup l -> NoDup (add_if_not_there x l).
Proof.
  unfold add_if_not_there. destruct (mem_s x l) eqn:E; auto. intros H.
  apply (Permutation_NoDup (l := x :: l)).
  - apply perm_trans with (l := x :: l) (l' := [x] ++ l) (l'' := l ++ [x]); [apply Permutation_refl|apply Permutation_app_comm].
  - constructor; auto. intros F. apply mem_s_spec in F. congruence.
Qed.
Inductive group := G_param | G_lambda | G_u | G_x | G_a.
Definition group_eq_dec (g h : group) : {g = h} + {g <> h}. Proof. decide equality. Defined.
Definition group_of (x_args u_args a_args : list atom) (s : string) : group :=
  if in_dec atom_eq_dec (Static s) u_args then G_u
  else if in_dec atom_eq_dec (Static s) x_args then G_x
  else if in_dec atom_eq_dec (Static s) a_args then G_a
  else if is_lambda s then G_lambda else G_param.
Definition f_get (g : group) (f : found) : list string :=
  match g with G_param => f_params f | G_lambda => f_lambdas f | G_u => f_u f | G_x => f_x f | G_a => f_a f end.
Lemma classify_get xa ua aa f s g :
  f_get g (classify xa ua aa f s) = if group_eq_dec g (group_of xa ua aa s) then add_if_not_there s (f_get g f) else f_get g f.
Proof.
  unfold classify, group_of, mem_a.
  assert (App : forall (l m : list atom) (x : atom), In x (l ++ m) <-> In x l \/ In x m) by (intros; apply in_app_iff).
  destruct (in_dec atom_eq_dec (Static s) (xa ++ ua ++ aa)) as [I|I]; cbn [negb];
  rewrite !App in I;
  destruct (in_dec atom_eq_dec (Static s) ua); [destruct g; reflexivity| |tauto|];
  (destruct (in_dec atom_eq_dec (Static s) xa); [try tauto; destruct g; reflexivity|]);
  (destruct (in_dec atom_eq_dec (Static s) aa); [try tauto; destruct g; reflexivity|]); try tauto.
  destruct (is_lambda s); destruct g; reflexivity.
Qed.
Lemma fold_classify_in xa ua aa l : forall f g y,
  In y (f_get g (fold_left (classify xa ua aa) l f)) <-> (In y (f_get g f) \/ (In y l /\ group_of xa ua aa y = g)).
Proof.
  induction l as [|s l IH]; intros f g y; cbn [fold_left]; [cbn; tauto|].
  rewrite IH, classify_get. destruct (group_eq_dec g (group_of xa ua aa s)) as [->|N].
  - rewrite add_in. cbn. split; intros H.
    + destruct H as [[->|]|[]]; auto.
    + destruct H as [|[[->|] ?]]; auto.
  - cbn. split; intros H; [tauto|]. destruct H as [|[[->|] ?]]; auto. congruence.
Qed.
Lemma fold_classify_nodup xa ua aa l : forall f, (forall g, NoDup (f_get g f)) ->
  forall g, NoDup (f_get g (fold_left (classify xa ua aa) l f)).
Proof.
  induction l as [|s l IH]; intros f H g; cbn [fold_left]; auto.
  apply IH. intros h. rewrite classify_get. destruct (group_eq_dec h _); auto. apply add_nodup; auto.
Qed.
Definition no_found : found := {| f_params := []; f_lambdas := []; f_u := []; f_x := []; f_a := [] |}.
Definition all_found xa ua aa (sets : list (list string)) : found :=
  fold_left (fun f l => fold_left (classify xa ua aa) l f) sets no_found.
Lemma all_found_concat xa ua aa sets : all_found xa ua aa sets = fold_left (classify xa ua aa) (concat sets) no_found.
Proof.
  unfold all_found. generalize no_found. induction sets as [|l sets IH]; intros f; cbn; auto.
  rewrite IH, fold_left_app; auto.
Qed.
Lemma all_found_in xa ua aa sets g y : In y (f_get g (all_found xa ua aa sets)) <-> (In y (concat sets) /\ group_of xa ua aa y = g).
Proof. rewrite all_found_concat, fold_classify_in. destruct g; cbn; tauto. Qed.
Lemma all_found_nodup xa ua aa sets g : NoDup (f_get g (all_found xa ua aa sets)).
Proof. rewrite all_found_concat. apply fold_classify_nodup. intros []; constructor. Qed.
Lemma all_found_perm xa ua aa sets sets' g :
  (forall y, In y (concat sets) <-> In y (concat sets')) ->
  Permutation (f_get g (all_found xa ua aa sets)) (f_get g (all_found xa ua aa sets')).
Proof.
  intros H. apply NoDup_Permutation; try apply all_found_nodup.
  intros y. rewrite !all_found_in, H. tauto.
Qed.

Lemma find_arguments_eq sets q_vars u_vars sl sa :
  find_arguments sets q_vars u_vars sl sa =
  (do (q, v, a) <- q_groups q_vars;
   do u <- u_group sets u_vars;
   let f := all_found (q ++ v) u a sets in
   Ok {| r_q := q; r_v := v; r_a := if sa then a else [];
         r_u := match u_vars with U_none => map Static (sorted (f_u f)) | _ => u end;
         r_params := sorted ((f_params f ++ (if sl then [] else sorted (f_lambdas f))) ++ (if sa then [] else sorted (f_a f)));
         r_lambdas := if sl then sorted (f_lambdas f) else [] |}).
Proof.
  unfold find_arguments. change (match q_vars with Q_int n => _ | Q_list l => _ | Q_other => _ end) with (q_groups q_vars).
  destruct (q_groups q_vars) as [[[q v] a]|]; cbn [rbind]; auto.
  change (match u_vars with U_none => Ok _ | U_int n => _ | U_list l => _ | U_other => _ end) with (u_group sets u_vars).
  destruct (u_group sets u_vars) as [u|]; cbn [rbind]; auto. cbv zeta.
  change (fold_left (fun f l => fold_left (classify (q ++ v) u a) l f) sets _) with (all_found (q ++ v) u a sets).
  rewrite sorted_sorted_eq. destruct sl, sa; rewrite ?app_nil_r; reflexivity.
Qed.
Lemma n_symbols_length sets : n_symbols sets = length (concat sets).
Proof. unfold n_symbols. induction sets; cbn; auto. rewrite app_length; auto. Qed.
Lemma perm_concat (a b : list (list string)) : Forall2 (@Permutation string) a b -> Permutation (concat a) (concat b).
Proof. induction 1; cbn; auto. apply Permutation_app; auto. Qed.

(** Neither the order in which the sets are iterated nor that of the
    expressions matters. *)
Theorem find_arguments_perm sets sets' q_vars u_vars sl sa :
  Permutation (concat sets) (concat sets') ->
  find_arguments sets q_vars u_vars sl sa = find_arguments sets' q_vars u_vars sl sa.
Proof.
  intros P. rewrite !find_arguments_eq.
  destruct (q_groups q_vars) as [[[q v] a]|]; cbn [rbind]; auto.
  assert (EU : u_group sets u_vars = u_group sets' u_vars).
  { destruct u_vars; auto. cbn. rewrite !n_symbols_length, (Permutation_length P); auto. }
  rewrite <- EU. destruct (u_group sets u_vars) as [u|]; cbn [rbind]; auto. cbv zeta.
  assert (Q : forall g, Permutation (f_get g (all_found (q ++ v) u a sets)) (f_get g (all_found (q ++ v) u a sets'))).
  { intros g; apply all_found_perm. intros y; split; apply Permutation_in; [|apply Permutation_sym]; auto. }
  pose proof (Q G_lambda) as QL. pose proof (Q G_a) as QA. pose proof (Q G_u) as QU. cbn [f_get] in QL, QA, QU.
  rewrite (sorted_perm_eq _ _ QL), (sorted_perm_eq _ _ QA), (sorted_perm_eq _ _ QU).
  do 2 f_equal. apply sorted_perm_eq. apply Permutation_app; auto. apply Permutation_app; auto. apply (Q G_param).
Qed.

Lemma map_static_in s l : In (Static s) (map Static l) <-> In s l.
Proof. rewrite in_map_iff. split; [intros (x & E & H); injection E as ->; auto|intros H; exists s; auto]. Qed.

(** Every symbol is in exactly one group. *)
Theorem find_arguments_partition sets q_vars u_vars sl sa r s :
  find_arguments sets q_vars u_vars sl sa = Ok r ->
  In s (concat sets) ->
  (forall q v a, q_groups q_vars = Ok (q, v, a) -> disjoint (q ++ v) a) ->
  (forall q v a u, q_groups q_vars = Ok (q, v, a) -> u_group sets u_vars = Ok u -> disjoint u (q ++ v) /\ disjoint u a) ->
  exactly_one [In (Static s) (r_q r ++ r_v r); In (Static s) (r_a r); In (Static s) (r_u r); In s (r_params r); In s (r_lambdas r)].
Proof.
  rewrite find_arguments_eq. intros H Hs D1 D2.
  destruct (q_groups q_vars) as [[[q v] a]|]; cbn [rbind] in H; [|discriminate].
  destruct (u_group sets u_vars) as [u|]; cbn [rbind] in H; [|discriminate]. cbv zeta in H.
  specialize (D1 q v a eq_refl). destruct (D2 q v a u eq_refl eq_refl) as [D3 D4]. clear D2.
  set (f := all_found (q ++ v) u a sets) in *.
  assert (F : forall g, In s (f_get g f) <-> group_of (q ++ v) u a s = g).
  { intros g. unfold f. rewrite all_found_in. tauto. }
  injection H as <-. cbn [r_q r_v r_a r_u r_params r_lambdas].
  assert (P : In s (sorted ((f_params f ++ (if sl then [] else sorted (f_lambdas f))) ++ (if sa then [] else sorted (f_a f)))) <->
     (In s (f_get G_param f) \/ (sl = false /\ In s (f_get G_lambda f)) \/ (sa = false /\ In s (f_get G_a f)))).
  { rewrite sorted_in, !in_app_iff. destruct sl, sa; cbn [In f_get]; rewrite ?sorted_in; intuition congruence. }
  assert (U : In (Static s) (match u_vars with U_none => map Static (sorted (f_u f)) | _ => u end) <-> group_of (q ++ v) u a s = G_u).
  { destruct u_vars; [rewrite map_static_in, sorted_in; apply (F G_u)| | |];
    unfold group_of; destruct (in_dec atom_eq_dec (Static s) u); try tauto;
    repeat destruct (in_dec atom_eq_dec (Static s) _); try destruct (is_lambda s); split; try tauto; discriminate. }
  assert (Lm : In s (if sl then sorted (f_lambdas f) else []) <-> (sl = true /\ group_of (q ++ v) u a s = G_lambda)).
  { destruct sl; [rewrite sorted_in, (F G_lambda); tauto|cbn; intuition congruence]. }
  assert (A : In (Static s) (if sa then a else []) <-> (sa = true /\ group_of (q ++ v) u a s = G_a)).
  { destruct sa; [|cbn; intuition congruence]. unfold group_of.
    destruct (in_dec atom_eq_dec (Static s) u) as [I|I]; [specialize (D4 _ I); intuition discriminate|].
    destruct (in_dec atom_eq_dec (Static s) (q ++ v)) as [I2|I2]; [specialize (D1 _ I2); intuition discriminate|].
    destruct (in_dec atom_eq_dec (Static s) a); [tauto|]. destruct (is_lambda s); intuition discriminate. }
  assert (X : In (Static s) (q ++ v) <-> group_of (q ++ v) u a s = G_x).
  { unfold group_of. destruct (in_dec atom_eq_dec (Static s) u) as [I|I]; [specialize (D3 _ I); intuition discriminate|].
    destruct (in_dec atom_eq_dec (Static s) (q ++ v)); [tauto|].
    destruct (in_dec atom_eq_dec (Static s) a); [intuition discriminate|]. destruct (is_lambda s); intuition discriminate. }
  rewrite !F in P. cbn [exactly_one]. revert P U Lm A X.
  generalize (In (Static s) (q ++ v)), (In (Static s) (if sa then a else [])),
    (In (Static s) (match u_vars with U_none => map Static (sorted (f_u f)) | _ => u end)),
    (In s (sorted ((f_params f ++ (if sl then [] else sorted (f_lambdas f))) ++ (if sa then [] else sorted (f_a f))))),
    (In s (if sl then sorted (f_lambdas f) else [])).
  generalize (group_of (q ++ v) u a s). clear. intros g P1 P2 P3 P4 P5 A1 A2 A3 A4 A5.
  assert (N : forall P Q : Prop, (P <-> Q) -> ~ Q -> ~ P) by tauto.
  destruct g, sl, sa;
  repeat first [left; split; [intuition congruence|repeat (constructor; [intuition congruence|]); constructor] | right; split; [intuition congruence|]].
Qed.

(** The groups given back when the coordinates are numbered. *)
Lemma numbered_in c n s : In (Static s) (numbered c n) <-> exists i, (i < n)%nat /\ s = (c ++ "_" ++ str_nat i)%string.
Proof.
  unfold numbered. rewrite in_map_iff. split.
  - intros (i & E & H). injection E as <-. exists i; split; auto. apply in_seq in H; lia.
  - intros (i & H & ->). exists i; split; auto. apply in_seq; lia.
Qed.
(** What is a parameter, exactly. *)
Theorem find_arguments_params sets q_vars u_vars sl sa r q v a u s :
  find_arguments sets q_vars u_vars sl sa = Ok r ->
  q_groups q_vars = Ok (q, v, a) -> u_group sets u_vars = Ok u ->
  (In s (r_params r) <->
   In s (concat sets) /\ ~ In (Static s) u /\ ~ In (Static s) q /\ ~ In (Static s) v /\
   (sa = true -> ~ In (Static s) a) /\ (sl = true -> is_lambda s = true -> In (Static s) a)).
Proof.
  rewrite find_arguments_eq. intros H Hq Hu. rewrite Hq, Hu in H. cbn [rbind] in H. cbv zeta in H.
  set (f := all_found (q ++ v) u a sets) in *.
  assert (F : forall g, In s (f_get g f) <-> (In s (concat sets) /\ group_of (q ++ v) u a s = g)) by (intros g; apply all_found_in).
  injection H as <-. cbn [r_params].
  rewrite sorted_in, !in_app_iff.
  assert (P : In s (f_params f) \/ In s (if sl then [] else sorted (f_lambdas f)) <->
     (In s (f_get G_param f) \/ (sl = false /\ In s (f_get G_lambda f)))).
  { destruct sl; cbn [In f_get]; rewrite ?sorted_in; intuition congruence. }
  assert (P2 : In s (if sa then [] else sorted (f_a f)) <-> (sa = false /\ In s (f_get G_a f))).
  { destruct sa; cbn [In f_get]; rewrite ?sorted_in; intuition congruence. }
  rewrite P, P2, !F. clear. unfold group_of.
  destruct (in_dec atom_eq_dec (Static s) u); [intuition discriminate|].
  destruct (in_dec atom_eq_dec (Static s) (q ++ v)) as [I|I]; rewrite in_app_iff in I; [intuition discriminate|].
  destruct (in_dec atom_eq_dec (Static s) a); destruct (is_lambda s), sl, sa; intuition congruence.
Qed.
Lemma strongly_sorted_leb l : StronglySorted sle l -> StronglySorted (fun x y => (x <=? y)%string = true) l.
Proof.
  induction 1 as [|x l H IH F]; constructor; auto. rewrite Forall_forall in *. intros y Hy. apply leb_cases. apply F; auto.
Qed.
Theorem find_arguments_sorted sets q_vars u_vars sl sa r :
  find_arguments sets q_vars u_vars sl sa = Ok r ->
  StronglySorted (fun x y => (x <=? y)%string = true) (r_params r) /\ StronglySorted (fun x y => (x <=? y)%string = true) (r_lambdas r).
Proof.
  rewrite find_arguments_eq. intros H.
  destruct (q_groups q_vars) as [[[q v] a]|]; cbn [rbind] in H; [|discriminate].
  destruct (u_group sets u_vars) as [u|]; cbn [rbind] in H; [|discriminate]. injection H as <-. cbn.
  split; [apply strongly_sorted_leb, sorted_sorted|]. destruct sl; [apply strongly_sorted_leb, sorted_sorted|constructor].
Qed.

(** ** From the expressions *)
(** The symbols that are classified are the standard names of the symbols of
    the atoms. *)
Theorem symbols_of order names e e' s :
  Forall (fun a => is_dyn a = true) order ->
  (forall a, In a (atoms e) -> is_dyn a = true -> In a order) ->
  diff_to_symb_expr order e = Ok e' ->
  (forall n, In (Static n) (atoms e') -> In n names) ->
  (In (Static s) (atoms (standard_notation names e')) <-> exists a, In a (atoms e) /\ std (symb_of a) = Static s).
Proof.
  intros H1 H2 H3 H4. rewrite standard_notation_value by auto. rewrite (diff_to_symb_expr_value _ _ _ H1 H2 H3), !atoms_rename.
  rewrite map_map, in_map_iff. split; intros (a & ? & ?); exists a; auto.
Qed.

(** ** What goes wrong *)
Theorem symb_collisions :
  diff_to_symb (Dyn "q_1" 1) = diff_to_symb (Static "v_1") /\
  diff_to_symb (Dyn "x" 1) = diff_to_symb (Dyn "x_dot" 0) /\
  diff_to_symb (Dyn "q_dot_1" 2) = diff_to_symb (Dyn "q_1" 3) /\
  diff_to_symb (Dyn "q" 1) = Err IndexError.
Proof. repeat split; reflexivity. Qed.
Theorem std_collision : std (Static "q1") = std (Static "q_1") /\
  standard_notation ["q1"%string; "q_1"%string] (Plus (Var (Static "q1")) (Times (Num (-1)) (Var (Static "q_1")))) =
  Plus (Var (Static "q_1")) (Times (Num (-1)) (Var (Static "q_1"))).
Proof. split; reflexivity. Qed.
Theorem q_2_x_clobbers :
  q_2_x (Plus (Var (Dyn "x_1" 0)) (Times (Num 2) (Var (Dyn "x_0" 0)))) [Dyn "x_1" 0; Dyn "x_0" 0] [Dyn "x_1" 1; Dyn "x_0" 1] =
  Ok (Plus (Var (Dyn "x_1" 0)) (Times (Num 2) (Var (Dyn "x_1" 0)))) /\
  rename (x_for ["x_1"; "x_0"]%string) (Plus (Var (Dyn "x_1" 0)) (Times (Num 2) (Var (Dyn "x_0" 0)))) =
  Plus (Var (Dyn "x_0" 0)) (Times (Num 2) (Var (Dyn "x_1" 0))).
Proof. split; reflexivity. Qed.
Theorem u_index : exists r,
  find_arguments [["u_7"; "q_0"]%string] (Q_int 1) U_none false false = Ok r /\ r_u r = [] /\ r_params r = ["u_7"%string].
Proof. eexists. repeat split; reflexivity. Qed.
Theorem u_order : exists r,
  find_arguments [["u_2"; "u_10"; "k"; "m"; "g"; "l"; "d"; "c"; "b"; "p"; "r"]%string] (Q_int 1) U_none false false = Ok r /\
  r_u r = [Static "u_10"; Static "u_2"].
Proof. eexists. split; reflexivity. Qed.
Theorem u_dynamic : exists r,
  find_arguments [["F"; "q_0"]%string] (Q_int 1) (U_list [Dyn "F" 0]) false false = Ok r /\
  r_u r = [Dyn "F" 0] /\ r_params r = ["F"%string].
Proof. eexists. repeat split; reflexivity. Qed.
Theorem u_overlap : exists r,
  find_arguments [["q_0"]%string] (Q_int 1) (U_list [Static "q_0"]) false false = Ok r /\
  In (Static "q_0") (r_q r) /\ In (Static "q_0") (r_u r).
Proof. eexists. repeat split; cbn; auto. Qed.

(** ** Examples *)
Theorem symb_example :
  diff_to_symb_expr [Dyn "q_0" 0; Dyn "q_0" 2; Dyn "q_0" 1; Dyn "th" 1]
    (Plus (Var (Dyn "q_0" 2)) (Times (Var (Dyn "q_0" 1)) (Plus (Var (Dyn "th" 1)) (Var (Dyn "q_0" 0))))) =
  Ok (Plus (Var (Static "a_0")) (Times (Var (Static "v_0")) (Plus (Var (Static "th_dot")) (Var (Static "q_0"))))).
Proof. reflexivity. Qed.
Theorem clean_example : clean_name "q_12" /\ clean_name "theta" /\ clean_name "x_0".
Proof.
  assert (G : forall p s, (forall a b, s <> a ++ p ++ b)%string -> ~ contains p s) by (intros p s H (a & b & E); exact (H a b E)).
  assert (D : forall s a b, s = (a ++ "_dot" ++ b)%string -> index 0 "_dot" s <> None).
  { intros s a b E F. apply (index_correct3 0 (String.length a) "_dot" s F); [discriminate|lia|].
    rewrite E. clear. induction a as [|c a IH]; cbn [append String.length substring]; auto.
    cbn. destruct b; reflexivity. }
  repeat split; try discriminate; try (intros [r E]; discriminate E);
  apply G; intros a b E; apply (D _ _ _ E); reflexivity.
Qed.
Theorem q_2_x_example :
  q_2_x (Plus (Var (Dyn "q_0" 2)) (Times (Var (Dyn "q_1" 0)) (Var (Dyn "q_1" 1)))) (map (fun n => Dyn n 0) ["q_0"; "q_1"]%string) (map (fun n => Dyn n 1) ["q_0"; "q_1"]%string) =
  Ok (Plus (Var (Dyn "x_2" 1)) (Times (Var (Dyn "x_1" 0)) (Var (Dyn "x_3" 0)))).
Proof. reflexivity. Qed.
Theorem q_2_x_names : NoDup ["q_0"; "q_1"]%string /\ forall i, ~ In (x_name i) ["q_0"; "q_1"]%string.
Proof.
  split.
  - constructor; [intros [F|[]]; discriminate F|constructor; [intros []|constructor]].
  - intros i [F|[F|[]]]; discriminate F.
Qed.
Theorem find_example : exists r,
  find_arguments [["m"; "q_0"; "lam0"; "a_0"]; ["u_0"; "g"; "v_0"; "m"]]%string (Q_int 1) U_none true true = Ok r /\
  r_q r = [Static "q_0"] /\ r_v r = [Static "v_0"] /\ r_a r = [Static "a_0"] /\ r_u r = [Static "u_0"] /\
  r_params r = ["g"; "m"]%string /\ r_lambdas r = ["lam0"]%string.
Proof. eexists. repeat split; reflexivity. Qed.
(** numbered groups never overlap *)
Theorem numbered_disjoint c d n m : c <> d -> String.length c = String.length d -> disjoint (numbered c n) (numbered d m).
Proof.
  intros H L [s|s k] A B.
  - apply numbered_in in A, B. destruct A as (i & _ & ->), B as (j & _ & E). apply H.
    clear H. revert d L E. induction c as [|x c IH]; intros [|y d] L E; cbn in *; try discriminate; auto.
    injection E as -> E. f_equal. apply IH; auto.
  - unfold numbered in A. apply in_map_iff in A. destruct A as (? & F & _). discriminate F.
Qed.

Theorem find_arguments_numbered sets n u_vars sl sa r s :
  u_vars = U_none \/ (exists m, u_vars = U_int m) ->
  find_arguments sets (Q_int n) u_vars sl sa = Ok r ->
  In s (concat sets) ->
  exactly_one [In (Static s) (r_q r ++ r_v r); In (Static s) (r_a r); In (Static s) (r_u r); In s (r_params r); In s (r_lambdas r)].
Proof.
  intros Hu H Hs. apply (find_arguments_partition sets (Q_int n) u_vars sl sa r s H Hs).
  - intros q v a E; injection E as <- <- <-. intros x Hx. apply in_app_or in Hx.
    destruct Hx as [Hx|Hx];
    [exact (numbered_disjoint "q" "a" n n ltac:(discriminate) eq_refl x Hx)|exact (numbered_disjoint "v" "a" n n ltac:(discriminate) eq_refl x Hx)].
  - intros q v a u E Eu; injection E as <- <- <-.
    assert (exists m, u = numbered "u" m) as (m & ->).
    { destruct Hu as [->|(m & ->)]; cbn in Eu; injection Eu as <-; eauto. }
    split; intros x Hx Hx2; [apply in_app_or in Hx2; destruct Hx2 as [Hx2|Hx2]|].
    + exact (numbered_disjoint "u" "q" m n ltac:(discriminate) eq_refl x Hx Hx2).
    + exact (numbered_disjoint "u" "v" m n ltac:(discriminate) eq_refl x Hx Hx2).
    + exact (numbered_disjoint "u" "a" m n ltac:(discriminate) eq_refl x Hx Hx2).
Qed.

(** ** Multipliers *)
Lemma all_digits_iff s : all_digits s = true <-> Forall decimal_digit (list_ascii_of_string s).
Proof.
  induction s as [|c s IH]; cbn [all_digits list_ascii_of_string]; [split; auto|].
  rewrite andb_true_iff, IH. unfold digit. rewrite andb_true_iff, !Nat.leb_le. unfold decimal_digit at 2.
  split; [intros [A B]; constructor; auto|intros H; inversion H; auto].
Qed.
Lemma is_lambda_iff s : is_lambda s = true <-> multiplier_name s.
Proof.
  split.
  - intros H. unfold is_lambda in H. destruct s as [|a s]; [discriminate|].
    destruct a as [[] [] [] [] [] [] [] []]; try discriminate. destruct s as [|a s]; [discriminate|].
    destruct a as [[] [] [] [] [] [] [] []]; try discriminate. destruct s as [|a s]; [discriminate|].
    destruct a as [[] [] [] [] [] [] [] []]; try discriminate. destruct s as [|c d]; [discriminate|].
    exists c, d. split; [reflexivity|]. apply all_digits_iff. exact H.
  - intros (c & d & -> & H). apply all_digits_iff in H. exact H.
Qed.
(** What is a parameter and what a multiplier, exactly. *)
Theorem find_arguments_groups sets q_vars u_vars sl sa r q v a u s :
  find_arguments sets q_vars u_vars sl sa = Ok r ->
  q_groups q_vars = Ok (q, v, a) -> u_group sets u_vars = Ok u ->
  (In s (r_params r) <->
   In s (concat sets) /\ ~ In (Static s) u /\ ~ In (Static s) q /\ ~ In (Static s) v /\
   (sa = true -> ~ In (Static s) a) /\ (sl = true -> multiplier_name s -> In (Static s) a)) /\
  (In s (r_lambdas r) <->
   sl = true /\ In s (concat sets) /\ ~ In (Static s) u /\ ~ In (Static s) q /\ ~ In (Static s) v /\ ~ In (Static s) a /\ multiplier_name s).
Proof.
  intros H Hq Hu. split; [rewrite <- is_lambda_iff; exact (find_arguments_params _ _ _ _ _ _ _ _ _ _ _ H Hq Hu)|].
  rewrite find_arguments_eq, Hq, Hu in H. cbn [rbind] in H. cbv zeta in H. injection H as <-. cbn [r_lambdas].
  rewrite <- is_lambda_iff. destruct sl; [|cbn [In]; intuition discriminate].
  rewrite sorted_in. change (f_lambdas (all_found (q ++ v) u a sets)) with (f_get G_lambda (all_found (q ++ v) u a sets)).
  rewrite all_found_in. unfold group_of.
  destruct (in_dec atom_eq_dec (Static s) u); [intuition discriminate|].
  destruct (in_dec atom_eq_dec (Static s) (q ++ v)) as [I|I]; rewrite in_app_iff in I; [intuition discriminate|].
  destruct (in_dec atom_eq_dec (Static s) a); destruct (is_lambda s); intuition congruence.
Qed.
Lemma ex_multiplier_names : multiplier_name "lam0"%string /\ multiplier_name "lam12"%string /\ ~ multiplier_name "lambda"%string /\ ~ multiplier_name "lam"%string.
Proof. rewrite <- !is_lambda_iff. repeat split; try reflexivity; discriminate. Qed.
