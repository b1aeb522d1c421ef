(** Proofs about sequences of method calls. *)
From Verif Require Import Prelude DispatchModel LifeModel.
Open Scope list_scope.

Definition inb (K : list attr) (a : attr) : bool := existsb (attr_beq a) K.
Definition linb (K : list lm_attr) (a : lm_attr) : bool := existsb (lm_attr_beq a) K.

Lemma attr_beq_refl : forall a, attr_beq a a = true.
Proof. destruct a; reflexivity. Qed.
Lemma attr_beq_eq : forall a b, attr_beq a b = true -> a = b.
Proof. intros a b H. destruct (attr_eq_dec a b) as [E|E]; [exact E|]. destruct a, b; cbn in H; congruence. Qed.
Lemma lm_beq_refl : forall a, lm_attr_beq a a = true.
Proof. destruct a; reflexivity. Qed.
Lemma lm_beq_eq : forall a b, lm_attr_beq a b = true -> a = b.
Proof. intros a b H. destruct a, b; cbn in H; congruence. Qed.

Lemma inb_In : forall K a, inb K a = true <-> In a K.
Proof.
  intros K a. unfold inb. rewrite existsb_exists. split.
  - intros [x [I E]]. apply attr_beq_eq in E. subst. exact I.
  - intros I. exists a. split; [exact I|apply attr_beq_refl].
Qed.
Lemma linb_In : forall K a, linb K a = true <-> In a K.
Proof.
  intros K a. unfold linb. rewrite existsb_exists. split.
  - intros [x [I E]]. apply lm_beq_eq in E. subst. exact I.
  - intros I. exists a. split; [exact I|apply lm_beq_refl].
Qed.

Lemma set_same : forall o a v, set_attr o a v a = Some v.
Proof. intros. unfold set_attr. rewrite attr_beq_refl. reflexivity. Qed.
Lemma set_other : forall o a v b, a <> b -> set_attr o a v b = o b.
Proof. intros. unfold set_attr. destruct (attr_beq a b) eqn:E; [apply attr_beq_eq in E; contradiction|reflexivity]. Qed.
Lemma setl_same : forall o a v, set_lm o a v a = Some v.
Proof. intros. unfold set_lm. rewrite lm_beq_refl. reflexivity. Qed.
Lemma setl_other : forall o a v b, a <> b -> set_lm o a v b = o b.
Proof. intros. unfold set_lm. destruct (lm_attr_beq a b) eqn:E; [apply lm_beq_eq in E; contradiction|reflexivity]. Qed.

(** ** A check that every access succeeds and depends only on known attributes *)
Fixpoint puts (cs : list access) : list attr :=
  match cs with
  | [] => []
  | Put a :: r => a :: puts r
  | Copy _ a :: r => a :: puts r
  | _ :: r => puts r
  end.

Fixpoint safe (K : list attr) (KL : list lm_attr) (cs : list access) (skip : nat) (T : list attr) : bool :=
  match cs with
  | [] => forallb (inb K) T
  | c :: r =>
    match skip with
    | S k => safe K KL r k T
    | O => match c with
           | Get a _ => inb K a && safe K KL r 0 T
           | LGet a => linb KL a && safe K KL r 0 T
           | Put a => safe (a :: K) KL r 0 T
           | LPut a => safe K (a :: KL) r 0 T
           | Copy l a => linb KL l && safe (a :: K) KL r 0 T
           | SkipIf ls n => safe K (ls ++ KL) r n T && safe K KL r 0 T
           | Fail _ => false
           end
    end
  end.

Definition agree (K : list attr) (o1 o2 : attrs) : Prop :=
  forall a, In a K -> o1 a = o2 a /\ o1 a <> None.
Definition lm_has (KL : list lm_attr) (l : lm_attrs) : Prop := forall a, In a KL -> l a <> None.

Lemma agree_set : forall K o1 o2 a v, agree K o1 o2 -> agree (a :: K) (set_attr o1 a v) (set_attr o2 a v).
Proof.
  intros K o1 o2 a v A b I. destruct (attr_eq_dec a b) as [->|N].
  - rewrite !set_same. split; congruence.
  - rewrite !set_other by exact N. destruct I as [I|I]; [contradiction|]. exact (A b I).
Qed.

Lemma get_all_has : forall l ls vs, get_all l ls = Some vs -> lm_has ls l.
Proof.
  intros l. induction ls as [|a r IH]; intros vs H; cbn in H.
  - intros a [].
  - destruct (l a) eqn:E; [|discriminate]. destruct (get_all l r) eqn:F; [|discriminate].
    intros b [<-|I]; [congruence|]. exact (IH _ eq_refl b I).
Qed.

Lemma exec_safe : forall m cs skip K KL T reads o1 o2 l,
  safe K KL cs skip T = true -> agree K o1 o2 -> lm_has KL l ->
  exists o1' o2' l', exec m cs None skip reads o1 l = (o1', l', Done) /\
    exec m cs None skip reads o2 l = (o2', l', Done) /\ agree T o1' o2' /\ lm_has KL l'.
Proof.
  intros m. induction cs as [|c r IH]; intros skip K KL T reads o1 o2 l S A L; cbn [safe exec] in *.
  - exists o1, o2, l. repeat split; auto; rewrite forallb_forall in S; apply S in H; apply inb_In in H; apply A in H; apply H.
  - destruct skip as [|k]; [|exact (IH k K KL T reads o1 o2 l S A L)].
    cbn [option_map]. destruct c.
    + apply andb_prop in S. destruct S as [I S]. apply inb_In in I. destruct (A a I) as [E N].
      destruct (o1 a) as [v|] eqn:V; [|congruence]. rewrite <- E. exact (IH 0%nat K KL T _ o1 o2 l S A L).
    + apply andb_prop in S. destruct S as [I S]. apply linb_In in I. pose proof (L a I) as N.
      destruct (l a) as [v|] eqn:V; [|congruence]. exact (IH 0%nat K KL T _ o1 o2 l S A L).
    + apply (IH 0%nat _ KL T _ _ _ l S); [|exact L]. apply agree_set. exact A.
    + destruct (IH 0%nat K (a :: KL) T reads o1 o2 (set_lm l a (LM_computed m a reads)) S A) as [o1' [o2' [l' [E1 [E2 [G H]]]]]].
      { intros b I. destruct (lm_attr_eq_dec a b) as [->|N]; [rewrite setl_same; congruence|].
        rewrite setl_other by exact N. destruct I as [I|I]; [contradiction|]. exact (L b I). }
      exists o1', o2', l'. repeat split; auto; try apply G; auto. intros b I. apply H. right. exact I.
    + apply andb_prop in S. destruct S as [I S]. apply linb_In in I. pose proof (L _ I) as N.
      match goal with N : l ?x <> None |- _ => destruct (l x) as [v|] eqn:V; [|congruence] end.
      apply (IH 0%nat _ KL T _ _ _ l S); [|exact L]. apply agree_set. exact A.
    + apply andb_prop in S. destruct S as [S1 S2]. destruct (get_all l ls) as [vs|] eqn:G.
      * destruct (IH n K (ls ++ KL) T (vs ++ reads) o1 o2 l S1 A) as [o1' [o2' [l' [E1 [E2 [G' H]]]]]].
        { intros b I. apply in_app_or in I. destruct I as [I|I]; [exact (get_all_has _ _ _ G b I)|exact (L b I)]. }
        exists o1', o2', l'. repeat split; auto; try apply G'; auto. intros b I. apply H. apply in_or_app. right. exact I.
      * exact (IH 0%nat K KL T reads o1 o2 l S2 A L).
    + discriminate.
Qed.

Lemma agree_self : forall K o1 o2, agree K o1 o2 -> agree K o1 o1.
Proof. intros K o1 o2 A a I. split; [reflexivity|exact (proj2 (A a I))]. Qed.

(** ** Attributes no access writes are kept *)
Lemma exec_keeps : forall m cs stop skip reads o l o' l' out a,
  exec m cs stop skip reads o l = (o', l', out) -> ~ In a (puts cs) -> o' a = o a.
Proof.
  intros m. induction cs as [|c r IH]; intros stop skip reads o l o' l' out a E N; cbn [exec] in E.
  - injection E as <- _ _. reflexivity.
  - assert (Nr : ~ In a (puts r)) by (intros I; apply N; destruct c; cbn; auto).
    destruct skip as [|k]; [|exact (IH _ _ _ _ _ _ _ _ _ E Nr)].
    assert (X : forall stop', match c with
        | Get a e => match o a with Some v => exec m r stop' 0 (v :: reads) o l | None => (o, l, Raised e) end
        | LGet a => match l a with Some v => exec m r stop' 0 (v :: reads) o l | None => (o, l, Raised AttributeError) end
        | Put a => exec m r stop' 0 reads (set_attr o a (Computed m a reads)) l
        | LPut a => exec m r stop' 0 reads o (set_lm l a (LM_computed m a reads))
        | Copy la a => match l la with Some v => exec m r stop' 0 (v :: reads) (set_attr o a v) l | None => (o, l, Raised AttributeError) end
        | SkipIf ls n => match get_all l ls with Some vs => exec m r stop' n (vs ++ reads) o l | None => exec m r stop' 0 reads o l end
        | Fail e => (o, l, Raised e) end = (o', l', out) -> o' a = o a).
    { intros stop' F. destruct c.
      - destruct (o a0); [exact (IH _ _ _ _ _ _ _ _ _ F Nr)|injection F as <- _ _; reflexivity].
      - destruct (l a0); [exact (IH _ _ _ _ _ _ _ _ _ F Nr)|injection F as <- _ _; reflexivity].
      - rewrite (IH _ _ _ _ _ _ _ _ _ F Nr). apply set_other. intros ->. apply N. left. reflexivity.
      - exact (IH _ _ _ _ _ _ _ _ _ F Nr).
      - destruct (l l0); [|injection F as <- _ _; reflexivity].
        rewrite (IH _ _ _ _ _ _ _ _ _ F Nr). apply set_other. intros ->. apply N. left. reflexivity.
      - destruct (get_all l ls); exact (IH _ _ _ _ _ _ _ _ _ F Nr).
      - injection F as <- _ _. reflexivity. }
    destruct stop as [[|k]|]; [injection E as <- _ _; reflexivity| |]; exact (X _ E).
Qed.

Fixpoint lputs (cs : list access) : list lm_attr :=
  match cs with
  | [] => []
  | LPut a :: r => a :: lputs r
  | _ :: r => lputs r
  end.

(** The shared object keeps what it has; attributes not written are kept. *)
Lemma exec_lm : forall m cs stop skip reads o l o' l' out,
  exec m cs stop skip reads o l = (o', l', out) ->
  (forall a, l a <> None -> l' a <> None) /\ (forall a, ~ In a (lputs cs) -> l' a = l a).
Proof.
  intros m. induction cs as [|c r IH]; intros stop skip reads o l o' l' out E; cbn [exec] in E.
  - injection E as _ <- _. auto.
  - assert (W : forall a, ~ In a (lputs (c :: r)) -> ~ In a (lputs r)) by (intros a N I; apply N; destruct c; cbn; auto).
    destruct skip as [|k]; [|destruct (IH _ _ _ _ _ _ _ _ E); split; auto].
    assert (X : forall stop', match c with
        | Get a e => match o a with Some v => exec m r stop' 0 (v :: reads) o l | None => (o, l, Raised e) end
        | LGet a => match l a with Some v => exec m r stop' 0 (v :: reads) o l | None => (o, l, Raised AttributeError) end
        | Put a => exec m r stop' 0 reads (set_attr o a (Computed m a reads)) l
        | LPut a => exec m r stop' 0 reads o (set_lm l a (LM_computed m a reads))
        | Copy la a => match l la with Some v => exec m r stop' 0 (v :: reads) (set_attr o a v) l | None => (o, l, Raised AttributeError) end
        | SkipIf ls n => match get_all l ls with Some vs => exec m r stop' n (vs ++ reads) o l | None => exec m r stop' 0 reads o l end
        | Fail e => (o, l, Raised e) end = (o', l', out) ->
        (forall a, l a <> None -> l' a <> None) /\ (forall a, ~ In a (lputs (c :: r)) -> l' a = l a)).
    { intros stop' F. destruct c.
      - destruct (o a); [|injection F as _ <- _; auto]. destruct (IH _ _ _ _ _ _ _ _ F). auto.
      - destruct (l a); [|injection F as _ <- _; auto]. destruct (IH _ _ _ _ _ _ _ _ F). auto.
      - destruct (IH _ _ _ _ _ _ _ _ F). auto.
      - destruct (IH _ _ _ _ _ _ _ _ F) as [P Q]. split.
        + intros b Hb. apply P. destruct (lm_attr_eq_dec a b) as [->|N]; [rewrite setl_same; congruence|rewrite setl_other; auto].
        + intros b Hb. rewrite Q by auto. apply setl_other. intros ->. apply Hb. left. reflexivity.
      - destruct (l l0); [|injection F as _ <- _; auto]. destruct (IH _ _ _ _ _ _ _ _ F). auto.
      - destruct (get_all l ls); destruct (IH _ _ _ _ _ _ _ _ F); auto.
      - injection F as _ <- _. auto. }
    destruct stop as [[|k]|]; [injection E as _ <- _; auto| |]; exact (X _ E).
Qed.

(** ** Histories *)
Definition given_attrs : list attr :=
  [A_LM; A_params; A_scheme; A_scheme_mode; A_t_start; A_t_end; A_verbose; A_silent].

Definition disjoint (A B : list attr) : bool := forallb (fun a => negb (inb B a)) A.
Lemma disjoint_In : forall A B a, disjoint A B = true -> In a A -> ~ In a B.
Proof.
  intros A B a D I J. unfold disjoint in D. rewrite forallb_forall in D. specialize (D a I).
  apply inb_In in J. rewrite J in D. discriminate.
Qed.

(** Case analysis on a problem and a method: every class and every method. *)
Ltac classes p := destruct p as [[[]|] [] [] ? ?].

Lemma given_not_put : forall p m, disjoint given_attrs (puts (code p m)) = true.
Proof. intros p m. classes p; destruct m as [?|?| | |?|?|?|?| |[|?]]; reflexivity. Qed.
Lemma base_not_lput : forall p m a, In a [L_q; L_rhs] -> ~ In a (lputs (code p m)).
Proof.
  intros p m a I. destruct I as [<-|[<-|[]]]; classes p; destruct m as [?|?| | |?|?|?|?| |[|?]]; cbn;
    intuition congruence.
Qed.

Definition well (w : world) : Prop :=
  (forall i a, In a given_attrs -> w_attrs w i a = Some (Given a)) /\
  (forall i, w_attrs w i A_cost <> None) /\ lm_has [L_q; L_rhs] (w_lm w).

Lemma new_well : well new_world.
Proof.
  split; [|split].
  - intros i a I. cbn in I. repeat (destruct I as [<-|I]; [reflexivity|]). contradiction.
  - intros i. cbn. congruence.
  - intros a I. cbn in I. destruct I as [<-|[<-|[]]]; cbn; congruence.
Qed.

(** an attribute that has a value keeps having one *)
Lemma exec_mono : forall m cs stop skip reads o l o' l' out a,
  exec m cs stop skip reads o l = (o', l', out) -> o a <> None -> o' a <> None.
Proof.
  intros m. induction cs as [|c r IH]; intros stop skip reads o l o' l' out a E N; cbn [exec] in E.
  - injection E as <- _ _. exact N.
  - destruct skip as [|k]; [|exact (IH _ _ _ _ _ _ _ _ _ E N)].
    assert (S : forall b v, set_attr o b v a <> None).
    { intros b v. destruct (attr_eq_dec b a) as [->|D]; [rewrite set_same; congruence|rewrite set_other; auto]. }
    assert (X : forall stop', match c with
        | Get a e => match o a with Some v => exec m r stop' 0 (v :: reads) o l | None => (o, l, Raised e) end
        | LGet a => match l a with Some v => exec m r stop' 0 (v :: reads) o l | None => (o, l, Raised AttributeError) end
        | Put a => exec m r stop' 0 reads (set_attr o a (Computed m a reads)) l
        | LPut a => exec m r stop' 0 reads o (set_lm l a (LM_computed m a reads))
        | Copy la a => match l la with Some v => exec m r stop' 0 (v :: reads) (set_attr o a v) l | None => (o, l, Raised AttributeError) end
        | SkipIf ls n => match get_all l ls with Some vs => exec m r stop' n (vs ++ reads) o l | None => exec m r stop' 0 reads o l end
        | Fail e => (o, l, Raised e) end = (o', l', out) -> o' a <> None).
    { intros stop' F. destruct c.
      - destruct (o a0); [exact (IH _ _ _ _ _ _ _ _ _ F N)|injection F as <- _ _; exact N].
      - destruct (l a0); [exact (IH _ _ _ _ _ _ _ _ _ F N)|injection F as <- _ _; exact N].
      - exact (IH _ _ _ _ _ _ _ _ _ F (S _ _)).
      - exact (IH _ _ _ _ _ _ _ _ _ F N).
      - destruct (l l0); [|injection F as <- _ _; exact N]. exact (IH _ _ _ _ _ _ _ _ _ F (S _ _)).
      - destruct (get_all l ls); exact (IH _ _ _ _ _ _ _ _ _ F N).
      - injection F as <- _ _. exact N. }
    destruct stop as [[|k]|]; [injection E as <- _ _; exact N| |]; exact (X _ E).
Qed.

Lemma run_call_well : forall ps w c, well w -> well (fst (run_call ps w c)).
Proof.
  intros ps w [i m st] [G [C L]]. unfold run_call. cbn [c_problem c_method c_stop].
  destruct (exec m (code (ps i) m) st 0 [] (w_attrs w i) (w_lm w)) as [[o l] out] eqn:E. cbn [fst].
  split; [|split].
  - intros j a I. cbn. destruct (Nat.eqb i j); [|exact (G j a I)].
    rewrite (exec_keeps _ _ _ _ _ _ _ _ _ _ a E); [exact (G i a I)|].
    exact (disjoint_In _ _ a (given_not_put (ps i) m) I).
  - intros j. cbn. destruct (Nat.eqb i j); [|exact (C j)]. exact (exec_mono _ _ _ _ _ _ _ _ _ _ _ E (C i)).
  - intros a I. cbn. exact (proj1 (exec_lm _ _ _ _ _ _ _ _ _ _ E) a (L a I)).
Qed.

Lemma run_cons : forall ps w c r, run ps w (c :: r) =
  (fst (run ps (fst (run_call ps w c)) r), snd (run_call ps w c) :: snd (run ps (fst (run_call ps w c)) r)).
Proof. intros. cbn [run]. destruct (run_call ps w c). cbn. destruct (run ps w0 r). reflexivity. Qed.

Lemma run_app : forall ps h1 h2 w, fst (run ps w (h1 ++ h2)) = fst (run ps (fst (run ps w h1)) h2).
Proof.
  intros ps. induction h1 as [|c r IH]; intros h2 w; [reflexivity|].
  cbn [app]. rewrite !run_cons. cbn [fst]. apply IH.
Qed.

Lemma run_well : forall ps h w, well w -> well (fst (run ps w h)).
Proof.
  intros ps. induction h as [|c r IH]; intros w W; [exact W|]. rewrite run_cons. cbn [fst].
  apply IH. apply run_call_well. exact W.
Qed.

(** ** Calls on one problem *)
Definition calls (i : nat) (ms : list method) : list call := map (fun m => Build_call i m None) ms.

Fixpoint exec_all (p : opti_problem) (ms : list method) (o : attrs) (l : lm_attrs)
  : attrs * lm_attrs * list outcome :=
  match ms with
  | [] => (o, l, [])
  | m :: r => let '(o1, l1, out) := exec m (code p m) None 0 [] o l in
              let '(o2, l2, outs) := exec_all p r o1 l1 in (o2, l2, out :: outs)
  end.

Lemma run_calls : forall ps i ms w o l outs,
  exec_all (ps i) ms (w_attrs w i) (w_lm w) = (o, l, outs) ->
  snd (run ps w (calls i ms)) = outs /\ w_attrs (fst (run ps w (calls i ms))) i = o /\
  w_lm (fst (run ps w (calls i ms))) = l.
Proof.
  intros ps i. induction ms as [|m r IH]; intros w o l outs E; cbn [exec_all] in E.
  - injection E as <- <- <-. auto.
  - change (calls i (m :: r)) with (Build_call i m None :: calls i r). rewrite run_cons. cbn [fst snd].
    destruct (exec m (code (ps i) m) None 0 [] (w_attrs w i) (w_lm w)) as [[o1 l1] out] eqn:E1.
    destruct (exec_all (ps i) r o1 l1) as [[o2 l2] outs2] eqn:E2. injection E as <- <- <-.
    assert (R : run_call ps w (Build_call i m None) = (set_problem w i o1 l1, out)).
    { unfold run_call. cbn [c_problem c_method c_stop]. rewrite E1. reflexivity. }
    rewrite R. cbn [fst snd].
    destruct (IH (set_problem w i o1 l1) o2 l2 outs2) as [A [B C]].
    { cbn. rewrite Nat.eqb_refl. exact E2. }
    rewrite A, B, C. auto.
Qed.

(** Safety of a list of calls from known attributes [K]. *)
Fixpoint safe_all (p : opti_problem) (K : list attr) (ms : list method) : bool :=
  match ms with
  | [] => true
  | m :: r => safe K [L_q; L_rhs] (code p m) 0 (K ++ puts (code p m)) && safe_all p (K ++ puts (code p m)) r
  end.

Definition all_puts (p : opti_problem) (ms : list method) : list attr := flat_map (fun m => puts (code p m)) ms.

Lemma exec_all_safe : forall p ms K o1 o2 l, safe_all p K ms = true -> agree K o1 o2 -> lm_has [L_q; L_rhs] l ->
  exists o1' o2' l', exec_all p ms o1 l = (o1', l', map (fun _ => Done) ms) /\
    exec_all p ms o2 l = (o2', l', map (fun _ => Done) ms) /\ agree (K ++ all_puts p ms) o1' o2'.
Proof.
  intros p. induction ms as [|m r IH]; intros K o1 o2 l S A L; cbn [safe_all exec_all] in *.
  - exists o1, o2, l. rewrite app_nil_r. auto.
  - apply andb_prop in S. destruct S as [S1 S2].
    destruct (exec_safe m (code p m) 0 K [L_q; L_rhs] _ [] o1 o2 l S1 A L) as [a [b [l1 [E1 [E2 [G H]]]]]].
    rewrite E1, E2. destruct (IH _ a b l1 S2 G H) as [a2 [b2 [l2 [F1 [F2 G2]]]]]. rewrite F1, F2.
    exists a2, b2, l2. cbn [map]. split; [reflexivity|split; [reflexivity|]].
    unfold all_puts in *. cbn [flat_map]. rewrite <- app_assoc in G2. exact G2.
Qed.

(** more known attributes do not hurt *)
Lemma safe_mono : forall cs K K' KL skip T T', (forall a, In a K -> In a K') ->
  (forall a, In a T' -> In a T \/ In a K') ->
  safe K KL cs skip T = true -> safe K' KL cs skip T' = true.
Proof.
  induction cs as [|c r IH]; intros K K' KL skip T T' HK HT S; cbn [safe] in *.
  - rewrite forallb_forall in *. intros a I. apply inb_In. destruct (HT a I) as [I'|I']; [|exact I'].
    apply HK. apply inb_In. exact (S a I').
  - destruct skip as [|k]; [|exact (IH _ _ _ _ _ _ HK HT S)].
    assert (HK' : forall b, (forall a, In a (b :: K) -> In a (b :: K')) /\ (forall a, In a T' -> In a T \/ In a (b :: K'))).
    { intros b. split; [intros a [I|I]; [left; exact I|right; exact (HK a I)]|].
      intros a I. destruct (HT a I) as [X|X]; [left; exact X|right; right; exact X]. }
    destruct c.
    + apply andb_prop in S. destruct S as [I S]. apply andb_true_intro. split; [|exact (IH _ _ _ _ _ _ HK HT S)].
      apply inb_In. apply HK. apply inb_In. exact I.
    + apply andb_prop in S. destruct S as [I S]. apply andb_true_intro. split; [exact I|exact (IH _ _ _ _ _ _ HK HT S)].
    + exact (IH _ _ _ _ _ _ (proj1 (HK' a)) (proj2 (HK' a)) S).
    + exact (IH _ _ _ _ _ _ HK HT S).
    + apply andb_prop in S. destruct S as [I S]. apply andb_true_intro. split; [exact I|].
      exact (IH _ _ _ _ _ _ (proj1 (HK' a)) (proj2 (HK' a)) S).
    + apply andb_prop in S. destruct S as [S1 S2]. apply andb_true_intro.
      split; [exact (IH _ _ _ _ _ _ HK HT S1)|exact (IH _ _ _ _ _ _ HK HT S2)].
    + discriminate.
Qed.
