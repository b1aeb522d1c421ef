(** Proofs for C100. *)
From Coq Require Import String.
From Verif Require Import Prelude RoundModel RoundSpec.
Open Scope R_scope.
Open Scope list_scope.

(** ** The simplifications *)
Lemma Int_part_IZR : forall z, Int_part (IZR z) = z.
Proof.
  intros z. unfold Int_part. rewrite <- (tech_up (IZR z) (z + 1)); [lia|rewrite plus_IZR; lra|rewrite plus_IZR; lra].
Qed.
Lemma pow_R_IZR : forall x z, pow_R x (IZR z) = powerRZ x z.
Proof.
  intros x z. unfold pow_R. destruct (Rlt_dec 0 x) as [H|H].
  - symmetry. now apply powerRZ_Rpower.
  - rewrite Int_part_IZR. now destruct (Req_EM_T (IZR z) (IZR z)).
Qed.
Lemma pow_R_0 : forall x, pow_R x 0 = 1.
Proof. intros x. rewrite (pow_R_IZR x 0). reflexivity. Qed.
Lemma pow_R_1 : forall x, pow_R x 1 = x.
Proof. intros x. rewrite (pow_R_IZR x 1). apply powerRZ_1. Qed.
Lemma powerRZ_IZR : forall x y, (0 <= y)%Z -> powerRZ (IZR x) y = IZR (x ^ y).
Proof.
  intros x y H. destruct (Z_of_nat_complete y H) as [n ->]. rewrite <- pow_powerRZ. apply pow_IZR.
Qed.

Lemma make_int_keeps : keeps_floats make_int.
Proof.
  intros s f g o a b.
  assert (Pow : forall x y, value s f g (if (0 <=? y)%Z then Itg (x ^ y) else Op OPow (Itg x) (Itg y)) = pow_R (IZR x) (IZR y)).
  { intros x y. destruct (Z.leb_spec 0 y) as [E|E]; cbn [value value_op]; [|reflexivity].
    now rewrite pow_R_IZR, powerRZ_IZR. }
  destruct o, a as [r|x|x|o1 a1 a2|h a1], b as [q|y|y|o2 b1 b2|h' b1]; cbn [make_int value value_op];
    try reflexivity; try apply Pow; rewrite ?plus_IZR, ?mult_IZR; try reflexivity;
    try destruct x as [|[x|x|]|x]; try destruct y as [|[y|y|]|y]; cbn [value value_op];
    rewrite ?plus_IZR, ?mult_IZR, ?pow_R_0, ?pow_R_1; try reflexivity; ring.
Qed.
Lemma make_int_no_floats : makes_no_floats make_int.
Proof.
  intros o a b r. destruct o, a as [p|x|x|o1 a1 a2|h a1], b as [q|y|y|o2 b1 b2|h' b1]; cbn [make_int];
    try destruct x as [|[x|x|]|x]; try destruct y as [|[y|y|]|y]; cbn [floats app];
    try (destruct (_ <=? _)%Z; cbn [floats app]); rewrite ?app_nil_r; intros; auto; contradiction.
Qed.

Lemma make_sympy_keeps : keeps_values make_sympy.
Proof.
  intros s f o a b. unfold make_sympy. destruct a, b; try apply make_int_keeps; reflexivity.
Qed.

(** ** Replacing a float *)
Section Replace.
Variable make : op -> tree -> tree -> tree.
Variables (s : string -> R) (f : string -> R -> R).
Definition read (g : R -> R) (r : R) (new : tree) : R -> R :=
  fun q => if Req_EM_T q r then value s f g new else g q.

Lemma flt_dec : forall t r, (t = Flt r) \/ (t <> Flt r).
Proof. intros t r. destruct (tree_eq_dec t (Flt r)); auto. Qed.

Lemma value_subs : keeps_floats make -> forall g r new t,
  value s f g (subs make t (Flt r) new) = value s f (read g r new) t.
Proof.
  intros K g r new. induction t as [q|z|x|o a IHa b IHb|h a IHa]; cbn [subs];
    (destruct (tree_eq_dec _ (Flt r)) as [E|E]; [try discriminate|]).
  - injection E as ->. cbn. unfold read. now destruct (Req_EM_T r r).
  - cbn. unfold read. destruct (Req_EM_T q r); [congruence|reflexivity].
  - reflexivity.
  - reflexivity.
  - cbn [value]. rewrite <- IHa, <- IHb.
    destruct (tree_eq_dec (subs make a (Flt r) new) a) as [Ea|Ea]; [|apply K].
    destruct (tree_eq_dec (subs make b (Flt r) new) b) as [Eb|Eb]; [|apply K].
    cbn [value]. now rewrite Ea, Eb.
  - cbn [value]. now rewrite IHa.
Qed.
Lemma value_subs_id : keeps_values make -> forall r new t,
  value s f (fun q => q) (subs make t (Flt r) new) = value s f (read (fun q => q) r new) t.
Proof.
  intros K r new. induction t as [q|z|x|o a IHa b IHb|h a IHa]; cbn [subs];
    (destruct (tree_eq_dec _ (Flt r)) as [E|E]; [try discriminate|]).
  - injection E as ->. cbn. unfold read. now destruct (Req_EM_T r r).
  - cbn. unfold read. destruct (Req_EM_T q r); [congruence|reflexivity].
  - reflexivity.
  - reflexivity.
  - cbn [value]. rewrite <- IHa, <- IHb.
    destruct (tree_eq_dec (subs make a (Flt r) new) a) as [Ea|Ea]; [|apply K].
    destruct (tree_eq_dec (subs make b (Flt r) new) b) as [Eb|Eb]; [|apply K].
    cbn [value]. now rewrite Ea, Eb.
  - cbn [value]. now rewrite IHa.
Qed.

Lemma floats_subs : makes_no_floats make -> forall r new t q,
  In q (floats (subs make t (Flt r) new)) -> (In q (floats t) /\ q <> r) \/ In q (floats new).
Proof.
  intros K r new. induction t as [p|z|x|o a IHa b IHb|h a IHa]; intros q; cbn [subs];
    (destruct (tree_eq_dec _ (Flt r)) as [E|E]; [now right|]).
  - intros [->|[]]. left. split; [now left|congruence].
  - contradiction.
  - contradiction.
  - assert (Hab : In q (floats (subs make a (Flt r) new) ++ floats (subs make b (Flt r) new)) ->
      In q (floats (Op o a b)) /\ q <> r \/ In q (floats new)).
    { intros H. cbn [floats]. apply in_app_or in H. destruct H as [H|H].
      - destruct (IHa q H) as [[H1 H2]|H1]; [left; split; [apply in_or_app|]|right]; auto.
      - destruct (IHb q H) as [[H1 H2]|H1]; [left; split; [apply in_or_app|]|right]; auto. }
    destruct (tree_eq_dec (subs make a (Flt r) new) a) as [Ea|Ea]; [|intros H; now apply Hab, (K o)].
    destruct (tree_eq_dec (subs make b (Flt r) new) b) as [Eb|Eb]; [|intros H; now apply Hab, (K o)].
    intros H. apply Hab. rewrite Ea, Eb. exact H.
  - cbn [floats]. intros H. exact (IHa q H).
Qed.
End Replace.

(** ** The loop *)
Section Loop.
Variable make : op -> tree -> tree -> tree.
Variable nl : R -> option tree.
Definition step (e a : tree) : tree :=
  match a with Flt r => match nl r with Some new => subs make e a new | None => e end | _ => e end.
Hypothesis nl_leaf : forall r new, nl r = Some new ->
  (exists z, new = Itg z) \/ exists r', new = Flt r' /\ (nl r' = None \/ nl r' = Some (Flt r')).
(** How a float is read in the end *)
Definition final (r : R) : R := match nl r with Some (Itg z) => IZR z | Some (Flt r') => r' | _ => r end.

Lemma loop_reads : keeps_floats make -> forall s f L, exists G,
  (forall e, value s f (fun q => q) (fold_left step L e) = value s f G e) /\
  (forall q, In (Flt q) L -> G q = final q) /\ (forall q, G q = final q \/ G q = q).
Proof using nl_leaf.
  intros K s f. induction L as [|a L [G [H1 [H2 H3]]]].
  - exists (fun q => q). split; [|split]; [reflexivity|intros q []|auto].
  - assert (Skip : (forall e, step e a = e) -> (forall r, a = Flt r -> final r = r) ->
      exists G, (forall e, value s f (fun q => q) (fold_left step (a :: L) e) = value s f G e) /\
        (forall q, In (Flt q) (a :: L) -> G q = final q) /\ (forall q, G q = final q \/ G q = q)).
    { intros Hs Hf. exists G. split; [|split; [|exact H3]].
      - intros e. cbn [fold_left]. now rewrite Hs, H1.
      - intros q [->|H]; auto. destruct (H3 q) as [->| ->]; auto. now rewrite (Hf q). }
    destruct a as [r|z|x|o a b|h a]; try (apply Skip; [reflexivity|discriminate]).
    destruct (nl r) as [new|] eqn:E.
    + exists (read s f G r new). split; [|split].
      * intros e. cbn [fold_left]. rewrite H1. unfold step. rewrite E. now apply value_subs.
      * intros q Hq. unfold read. destruct (Req_EM_T q r) as [->|N].
        -- destruct (nl_leaf r new E) as [[z ->]|[r' [-> Hr']]]; cbn [value].
           ++ unfold final. now rewrite E.
           ++ transitivity r'; [|unfold final; now rewrite E].
              assert (final r' = r') by (unfold final; now destruct Hr' as [->| ->]).
              destruct (H3 r') as [->| ->]; auto.
        -- apply H2. destruct Hq as [Hq|Hq]; [|assumption]. congruence.
      * intros q. unfold read. destruct (Req_EM_T q r) as [->|N]; [|apply H3].
        left. destruct (nl_leaf r new E) as [[z ->]|[r' [-> Hr']]]; cbn [value].
        -- unfold final. now rewrite E.
        -- transitivity r'; [|unfold final; now rewrite E].
           assert (final r' = r') by (unfold final; now destruct Hr' as [->| ->]).
           destruct (H3 r') as [->| ->]; auto.
    + apply Skip.
      * intros e. unfold step. now rewrite E.
      * intros q Hq. injection Hq as <-. unfold final. now rewrite E.
Qed.

Lemma floats_preorder : forall t q, In q (floats t) -> In (Flt q) (preorder t).
Proof using.
  clear. induction t as [p|z|x|o a IHa b IHb|h a IHa]; cbn; intros q; auto.
  - intros [->|[]]. now left.
  - intros H. right. apply in_app_or in H. apply in_or_app. destruct H; auto.
Qed.
Lemma preorder_floats : forall t q, In (Flt q) (preorder t) -> In q (floats t).
Proof using.
  clear. induction t as [p|z|x|o a IHa b IHb|h a IHa]; cbn; intros q.
  - intros [H|[]]. left. congruence.
  - intros [H|[]]. discriminate.
  - intros [H|[]]. discriminate.
  - intros [H|H]; [discriminate|]. apply in_app_or in H. apply in_or_app. destruct H; auto.
  - intros [H|H]; [discriminate|]. auto.
Qed.
Lemma value_ext : forall s f g g' t, (forall q, In q (floats t) -> g q = g' q) -> value s f g t = value s f g' t.
Proof using.
  clear. intros s f g g'. induction t as [p|z|x|o a IHa b IHb|h a IHa]; cbn; intros H; auto.
  - rewrite IHa, IHb; [reflexivity| |]; intros q Hq; apply H, in_or_app; auto.
  - now rewrite IHa.
Qed.

Lemma loop_value : keeps_floats make -> forall s f t,
  value s f (fun q => q) (fold_left step (preorder t) t) = value s f final t.
Proof using nl_leaf.
  intros K s f t. destruct (loop_reads K s f (preorder t)) as [G [H1 [H2 _]]]. rewrite H1.
  apply value_ext. intros q Hq. now apply H2, floats_preorder.
Qed.

Lemma loop_floats : makes_no_floats make -> forall L e q, In q (floats (fold_left step L e)) ->
  (In q (floats e) /\ (In (Flt q) L -> nl q = None)) \/ exists p new, In (Flt p) L /\ nl p = Some new /\ In q (floats new).
Proof using.
  clear nl_leaf. intros K. induction L as [|a L IH]; intros e q H; cbn [fold_left] in H.
  - left. split; [assumption|]. intros [].
  - destruct (IH _ _ H) as [[H1 H2]|[p [new [H1 H2]]]].
    + destruct a as [r|z|x|o a b|h a]; cbn [step] in H1;
        try (left; split; [assumption|]; intros [Hq|Hq]; [discriminate|auto]).
      destruct (nl r) as [new|] eqn:E.
      * apply floats_subs in H1; [|assumption]. destruct H1 as [[H3 H4]|H3].
        -- left. split; [assumption|]. intros [Hq|Hq]; [congruence|auto].
        -- right. exists r, new. repeat split; auto. now left.
      * left. split; [assumption|]. intros [Hq|Hq]; [congruence|auto].
    + right. exists p, new. split; [now right|assumption].
Qed.
Lemma loop_left : makes_no_floats make -> forall t q, In q (floats (fold_left step (preorder t) t)) ->
  (In q (floats t) /\ nl q = None) \/ exists p new, In p (floats t) /\ nl p = Some new /\ In q (floats new).
Proof using.
  clear nl_leaf. intros K t q H. destruct (loop_floats K _ _ _ H) as [[H1 H2]|[p [new [H1 H2]]]].
  - left. split; [assumption|]. now apply H2, floats_preorder.
  - right. exists p, new. split; [now apply preorder_floats|assumption].
Qed.
End Loop.

(** ** The three functions *)
Lemma fold_left_same : forall A B (f g : A -> B -> A) l a, (forall x y, f x y = g x y) -> fold_left f l a = fold_left g l a.
Proof. intros A B f g l. induction l as [|b l IH]; intros a H; [reflexivity|]. cbn. now rewrite H, IH. Qed.

Lemma integerize_step : forall make round0 t,
  integerize make round0 t = fold_left (step make (fun r => Some (Itg (round0 r)))) (preorder t) t.
Proof. reflexivity. Qed.
Lemma roundize_step : forall make round n t,
  roundize make round t n = fold_left (step make (fun r => Some (Flt (round r n)))) (preorder t) t.
Proof. reflexivity. Qed.
Definition small (tol r : R) : option tree := if Rlt_dec (Rabs r) tol then Some (Itg 0) else None.
Lemma deletezeros_step : forall make tol t,
  deletezeros make t tol = fold_left (step make (small tol)) (preorder t) t.
Proof.
  intros make tol t. apply fold_left_same. intros e [r|z|x|o a b|h a]; try reflexivity.
  cbn [step]. unfold small. now destruct (Rlt_dec (Rabs r) tol).
Qed.

Lemma integerize_value : forall make, keeps_floats make -> forall round0 s f t,
  value s f (fun r => r) (integerize make round0 t) = value s f (fun r => IZR (round0 r)) t.
Proof.
  intros make K round0 s f t. rewrite integerize_step, loop_value; [reflexivity| |assumption].
  intros r new [= <-]. left. now exists (round0 r).
Qed.
Lemma integerize_floats : forall make, makes_no_floats make -> forall round0 t, floats (integerize make round0 t) = [].
Proof.
  intros make K round0 t. rewrite integerize_step.
  destruct (floats (fold_left _ _ _)) as [|q l] eqn:E; [reflexivity|].
  assert (H : In q (floats (fold_left (step make (fun r => Some (Itg (round0 r)))) (preorder t) t))) by (rewrite E; now left).
  apply loop_left in H; [|assumption]. destruct H as [[_ H]|[p [new [_ [[= <-] H]]]]]; [discriminate|contradiction].
Qed.
Lemma roundize_value : forall make, keeps_floats make -> forall round n, (forall r, round (round r n) n = round r n) ->
  forall s f t, value s f (fun r => r) (roundize make round t n) = value s f (fun r => round r n) t.
Proof.
  intros make K round n I s f t. rewrite roundize_step, loop_value; [reflexivity| |assumption].
  intros r new [= <-]. right. exists (round r n). split; [reflexivity|]. right. now rewrite I.
Qed.
Lemma roundize_floats : forall make, makes_no_floats make -> forall round n t q,
  In q (floats (roundize make round t n)) -> exists p, In p (floats t) /\ q = round p n.
Proof.
  intros make K round n t q H. rewrite roundize_step in H. apply loop_left in H; [|assumption].
  destruct H as [[_ H]|[p [new [Hp [[= <-] H]]]]]; [discriminate|]. exists p. split; [assumption|].
  destruct H as [<-|[]]. reflexivity.
Qed.
Lemma deletezeros_value : forall make, keeps_floats make -> forall tol s f t,
  value s f (fun r => r) (deletezeros make t tol) = value s f (fun r => if Rlt_dec (Rabs r) tol then 0 else r) t.
Proof.
  intros make K tol s f t. rewrite deletezeros_step, loop_value; [| |assumption].
  - apply value_ext. intros q _. unfold final, small. now destruct (Rlt_dec (Rabs q) tol).
  - intros r new. unfold small. destruct (Rlt_dec (Rabs r) tol); intros [= <-]. left. now exists 0%Z.
Qed.
Lemma deletezeros_floats : forall make, makes_no_floats make -> forall tol t q,
  In q (floats (deletezeros make t tol)) -> In q (floats t) /\ tol <= Rabs q.
Proof.
  intros make K tol t q H. rewrite deletezeros_step in H. apply loop_left in H; [|assumption].
  unfold small in H. destruct H as [[H1 H2]|[p [new [_ [H1 H2]]]]].
  - split; [assumption|]. destruct (Rlt_dec (Rabs q) tol); [discriminate|lra].
  - destruct (Rlt_dec (Rabs p) tol); [|discriminate]. injection H1 as <-. contradiction.
Qed.

(** ** With one float *)
Lemma make_sympy_from : forall o a b, floats a = [] -> floats b = [] -> floats (make_sympy o a b) = [].
Proof.
  intros o a b Ha Hb. destruct (floats (make_sympy o a b)) as [|q l] eqn:E; [reflexivity|]. exfalso.
  assert (H : In q (floats (make_int o a b))).
  { replace (make_int o a b) with (make_sympy o a b); [rewrite E; now left|].
    destruct a, b; try discriminate; reflexivity. }
  apply make_int_no_floats in H. rewrite Ha, Hb in H. contradiction.
Qed.
Lemma subs_none : forall make r new t, floats t = [] -> subs make t (Flt r) new = t.
Proof.
  intros make r new. induction t as [p|z|x|o a IHa b IHb|h a IHa]; cbn [subs floats]; intros H;
    (destruct (tree_eq_dec _ (Flt r)) as [E|E]; [discriminate|]); try reflexivity; try discriminate.
  - apply app_eq_nil in H. destruct H as [H1 H2]. rewrite IHa, IHb by assumption.
    destruct (tree_eq_dec a a) as [_|N]; [|now destruct N]. destruct (tree_eq_dec b b) as [_|N]; [reflexivity|now destruct N].
  - now rewrite IHa.
Qed.
Lemma subs_one : forall r z t, (forall q, In q (floats t) -> q = r) -> floats (subs make_sympy t (Flt r) (Itg z)) = [].
Proof.
  intros r z. induction t as [p|y|x|o a IHa b IHb|h a IHa]; cbn [subs floats]; intros H;
    (destruct (tree_eq_dec _ (Flt r)) as [E|E]; [reflexivity|]); try reflexivity.
  - exfalso. apply E. f_equal. apply H. now left.
  - assert (A : floats (subs make_sympy a (Flt r) (Itg z)) = []) by (apply IHa; intros q Hq; apply H, in_or_app; now left).
    assert (B : floats (subs make_sympy b (Flt r) (Itg z)) = []) by (apply IHb; intros q Hq; apply H, in_or_app; now right).
    destruct (tree_eq_dec (subs make_sympy a (Flt r) (Itg z)) a) as [Ea|Ea]; [|now apply make_sympy_from].
    destruct (tree_eq_dec (subs make_sympy b (Flt r) (Itg z)) b) as [Eb|Eb]; [|now apply make_sympy_from].
    cbn [floats]. rewrite <- Ea, <- Eb, A, B. reflexivity.
  - cbn [floats]. now apply IHa.
Qed.
Lemma loop_none : forall make nl L e, floats e = [] -> fold_left (step make nl) L e = e.
Proof.
  intros make nl. induction L as [|a L IH]; intros e H; [reflexivity|]. cbn [fold_left].
  assert (Hs : step make nl e a = e).
  { destruct a as [r|z|x|o a b|h a]; try reflexivity. cbn [step]. destruct (nl r); [|reflexivity]. now apply subs_none. }
  rewrite Hs. now apply IH.
Qed.
Lemma loop_one : forall r z nl, nl r = Some (Itg z) -> forall s f L e, (forall q, In (Flt q) L -> q = r) ->
  (forall q, In q (floats e) -> q = r) -> (floats e <> [] -> In (Flt r) L) ->
  value s f (fun q => q) (fold_left (step make_sympy nl) L e) = value s f (fun _ => IZR z) e /\
  floats (fold_left (step make_sympy nl) L e) = [].
Proof.
  intros r z nl Hr s f. induction L as [|a L IH]; intros e HL He Hin.
  - cbn [fold_left]. assert (E : floats e = []) by (destruct (floats e); [reflexivity|]; now destruct Hin).
    split; [|assumption]. apply value_ext. intros q Hq. rewrite E in Hq. contradiction.
  - cbn [fold_left]. destruct a as [q|y|x|o a b|h a]; cbn [step];
      try (apply IH; [intros q Hq; apply HL; now right|assumption|intros H; destruct (Hin H) as [H'|H']; [discriminate|assumption]]).
    assert (q = r) as -> by (apply HL; now left). rewrite Hr.
    rewrite loop_none by now apply subs_one. split; [|now apply subs_one].
    rewrite value_subs_id by exact make_sympy_keeps. apply value_ext. intros p Hp. rewrite (He p Hp).
    unfold read. now destruct (Req_EM_T r r).
Qed.
Lemma integerize_one : forall round0 r s f t, (forall q, In q (floats t) -> q = r) ->
  value s f (fun q => q) (integerize make_sympy round0 t) = value s f (fun q => IZR (round0 q)) t /\
  floats (integerize make_sympy round0 t) = [].
Proof.
  intros round0 r s f t H. rewrite integerize_step.
  destruct (loop_one r (round0 r) (fun r => Some (Itg (round0 r))) eq_refl s f (preorder t) t) as [H1 H2].
  - intros q Hq. now apply H, preorder_floats.
  - assumption.
  - intros Hf. apply floats_preorder. destruct (floats t) as [|q l]; [easy|]. rewrite (H q) by now left. now left.
  - split; [|assumption]. rewrite H1. apply value_ext. intros q Hq. now rewrite (H q Hq).
Qed.

(** ** (0.4 x + 3) ** 1.4 *)
Definition powered : tree := Op OPow (Op OAdd (Itg 3) (Op OMul (Flt (2 / 5)) (Sym "x"))) (Flt (7 / 5)).
Lemma abs_le_inv : forall x a, Rabs x <= a -> - a <= x <= a.
Proof. intros x a H. unfold Rabs in H. destruct (Rcase_abs x); lra. Qed.
Lemma nearest_04 : forall round0, nearest round0 -> round0 (2 / 5) = 0%Z.
Proof.
  intros round0 H. specialize (H (2 / 5)). apply abs_le_inv in H.
  assert (-1 < round0 (2 / 5)%R < 1)%Z; [|lia]. split; apply lt_IZR; lra.
Qed.
Lemma nearest_14 : forall round0, nearest round0 -> round0 (7 / 5) = 1%Z.
Proof.
  intros round0 H. specialize (H (7 / 5)). apply abs_le_inv in H.
  assert (0 < round0 (7 / 5)%R < 2)%Z; [|lia]. split; apply lt_IZR; lra.
Qed.
Lemma tree_eq_true : forall A t (x y : A), (if tree_eq_dec t t then x else y) = x.
Proof. intros. now destruct (tree_eq_dec t t). Qed.
Lemma tree_eq_false : forall A t t' (x y : A), t <> t' -> (if tree_eq_dec t t' then x else y) = y.
Proof. intros A t t' x y H. now destruct (tree_eq_dec t t'). Qed.
Lemma flt_neq : forall x y, x <> y -> Flt x <> Flt y.
Proof. congruence. Qed.
Lemma powered_subs : forall make, make OMul (Itg 0) (Sym "x") = Itg 0 -> make OAdd (Itg 3) (Itg 0) = Itg 3 ->
  subs make powered (Flt (2 / 5)) (Itg 0) = make OPow (Itg 3) (Flt (7 / 5)).
Proof.
  intros make M A. unfold powered.
  assert (F : Flt (7 / 5) <> Flt (2 / 5)) by (apply flt_neq; lra).
  assert (M1 : subs make (Op OMul (Flt (2 / 5)) (Sym "x")) (Flt (2 / 5)) (Itg 0) = Itg 0).
  { cbn [subs]. rewrite (tree_eq_false _ (Op _ _ _)) by discriminate. rewrite tree_eq_true.
    rewrite (tree_eq_false _ (Itg 0)) by discriminate. rewrite (tree_eq_false _ (Sym "x")) by discriminate. exact M. }
  assert (A1 : subs make (Op OAdd (Itg 3) (Op OMul (Flt (2 / 5)) (Sym "x"))) (Flt (2 / 5)) (Itg 0) = Itg 3).
  { remember (Op OMul (Flt (2 / 5)) (Sym "x")) as m eqn:Em. cbn [subs].
    rewrite (tree_eq_false _ (Op _ _ _)) by discriminate. rewrite (tree_eq_false _ (Itg 3) (Flt (2 / 5))) by discriminate.
    rewrite M1. rewrite tree_eq_true. rewrite (tree_eq_false _ (Itg 0)) by (subst; discriminate). exact A. }
  remember (Op OAdd (Itg 3) (Op OMul (Flt (2 / 5)) (Sym "x"))) as a eqn:Ea. cbn [subs].
  rewrite (tree_eq_false _ (Op _ _ _)) by discriminate. rewrite A1.
  rewrite (tree_eq_false _ (Flt (7 / 5))) by assumption.
  rewrite (tree_eq_false _ (Itg 3)) by (subst; discriminate). reflexivity.
Qed.
Lemma powered_loop : forall make round0, round0 (2 / 5) = 0%Z -> round0 (7 / 5) = 1%Z ->
  make OMul (Itg 0) (Sym "x") = Itg 0 -> make OAdd (Itg 3) (Itg 0) = Itg 3 ->
  integerize make round0 powered = subs make (make OPow (Itg 3) (Flt (7 / 5))) (Flt (7 / 5)) (Itg 1).
Proof.
  intros make round0 H1 H2 M A. rewrite <- (powered_subs make M A). unfold integerize.
  remember (fun expr2 a => match a with Flt r => subs make expr2 a (Itg (round0 r)) | _ => expr2 end) as st eqn:E.
  unfold powered at 1. cbn [preorder app fold_left]. rewrite E. cbv beta iota. now rewrite H1, H2.
Qed.
Lemma three_power : 3 < Rpower 3 (7 / 5).
Proof. rewrite <- (Rpower_1 3) at 1 by lra. apply Rpower_lt; lra. Qed.
Lemma powered_sympy : forall round0, nearest round0 -> integerize make_sympy round0 powered = Flt (Rpower 3 (7 / 5)).
Proof.
  intros round0 H. rewrite (powered_loop make_sympy round0 (nearest_04 _ H) (nearest_14 _ H) eq_refl eq_refl).
  cbn [make_sympy value_op]. unfold pow_R. destruct (Rlt_dec 0 3) as [_|N]; [|exfalso; lra].
  cbn [subs]. apply tree_eq_false, flt_neq. pose proof three_power. lra.
Qed.
Lemma powered_int : forall round0, nearest round0 -> integerize make_int round0 powered = Itg 3.
Proof.
  intros round0 H. rewrite (powered_loop make_int round0 (nearest_04 _ H) (nearest_14 _ H) eq_refl eq_refl).
  cbn [make_int subs]. rewrite (tree_eq_false _ (Op _ _ _)) by discriminate.
  rewrite (tree_eq_false _ (Itg 3) (Flt (7 / 5))) by discriminate. rewrite !tree_eq_true.
  rewrite (tree_eq_false _ (Itg 1)) by discriminate. reflexivity.
Qed.
Lemma powered_value : forall round0 s f, nearest round0 -> value s f (fun r => IZR (round0 r)) powered = 3.
Proof.
  intros round0 s f H. cbn. rewrite (nearest_04 _ H), (nearest_14 _ H), pow_R_1. ring.
Qed.
