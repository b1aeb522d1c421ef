(** Facts about symbolic derivatives. *)
From Coq Require Import String Lia Lra.
From Coquelicot Require Import Coquelicot.
From Verif Require Import Prelude PreludeFacts PwInterpModel SymModel LagrModel LagrSpec.
Open Scope R_scope.
Open Scope list_scope.

(** ** Values *)
Lemma eval_esum rho n f : eval rho (esum n f) = rsum n (fun i => eval rho (f i)).
Proof. induction n; cbn [esum eval rsum]; [reflexivity | rewrite IHn; reflexivity]. Qed.
Lemma eval_Neg rho e : eval rho (Neg e) = - eval rho e.
Proof. cbn. lra. Qed.
Lemma eval_Minus rho a b : eval rho (Minus a b) = eval rho a - eval rho b.
Proof. unfold Minus. cbn [eval]. rewrite eval_Neg. lra. Qed.
Lemma eval_emulv rho k A v i : eval rho (emulv k A v i) = rsum k (fun l => eval rho (A i l) * eval rho (v l)).
Proof. unfold emulv. rewrite eval_esum. reflexivity. Qed.
Lemma eval_emul rho k A B i j : eval rho (emul k A B i j) = rsum k (fun l => eval rho (A i l) * eval rho (B l j)).
Proof. unfold emul. rewrite eval_esum. reflexivity. Qed.
Lemma eval_ext rho rho' e : (forall a, In a (atoms e) -> rho a = rho' a) -> eval rho e = eval rho' e.
Proof.
  induction e; cbn [eval atoms]; intros H; auto.
  - apply H. now left.
  - rewrite IHe1, IHe2; auto using in_or_app.
  - rewrite IHe1, IHe2; auto using in_or_app.
  - rewrite IHe; auto.
Qed.

(** ** Directional derivative *)
Fixpoint tangent (rho d : env) (e : expr) : R :=
  match e with
  | Num _ => 0
  | Var a => d a
  | Plus e1 e2 => tangent rho d e1 + tangent rho d e2
  | Times e1 e2 => tangent rho d e1 * eval rho e2 + eval rho e1 * tangent rho d e2
  | Func f k e => f (S k) (eval rho e) * tangent rho d e
  end.
Definition unit_env (s : atom) : env := fun a => if atom_eq_dec a s then 1 else 0.
Definition next_env (rho : env) : env := fun a => match a with Static _ => 0 | Dyn n k => rho (Dyn n (S k)) end.

Lemma eval_diff rho s e : eval rho (diff s e) = tangent rho (unit_env s) e.
Proof.
  induction e; cbn [diff eval tangent]; rewrite ?IHe1, ?IHe2, ?IHe; auto.
  unfold unit_env. destruct (atom_eq_dec a s); reflexivity.
Qed.
Lemma eval_ddt rho e : eval rho (ddt e) = tangent rho (next_env rho) e.
Proof.
  induction e; cbn [ddt eval tangent]; rewrite ?IHe1, ?IHe2, ?IHe; auto.
  destruct a; reflexivity.
Qed.
Lemma tangent_ext rho d d' e : (forall a, In a (atoms e) -> d a = d' a) -> tangent rho d e = tangent rho d' e.
Proof.
  induction e; cbn [tangent atoms]; intros H; auto.
  - apply H. now left.
  - rewrite IHe1, IHe2; auto using in_or_app.
  - rewrite IHe1, IHe2; auto using in_or_app.
  - rewrite IHe; auto.
Qed.
Lemma tangent_lin rho c d d' e : tangent rho (fun a => c * d a + d' a) e = c * tangent rho d e + tangent rho d' e.
Proof. induction e; cbn [tangent]; rewrite ?IHe1, ?IHe2, ?IHe; ring. Qed.
Lemma tangent_zero rho e : tangent rho (fun _ => 0) e = 0.
Proof. induction e; cbn [tangent]; rewrite ?IHe1, ?IHe2, ?IHe; ring. Qed.
Lemma tangent_none rho d e : (forall a, In a (atoms e) -> d a = 0) -> tangent rho d e = 0.
Proof. intros H. rewrite (tangent_ext rho d (fun _ => 0)) by auto. apply tangent_zero. Qed.
Lemma diff_none rho s e : ~ In s (atoms e) -> eval rho (diff s e) = 0.
Proof.
  intros H. rewrite eval_diff. apply tangent_none. intros a Ha. unfold unit_env.
  destruct (atom_eq_dec a s); [subst; contradiction | reflexivity].
Qed.
Lemma tangent_esum rho d n f : tangent rho d (esum n f) = rsum n (fun i => tangent rho d (f i)).
Proof. induction n; cbn [esum tangent rsum]; [reflexivity | rewrite IHn; reflexivity]. Qed.
Lemma tangent_Neg rho d e : tangent rho d (Neg e) = - tangent rho d e.
Proof. cbn. lra. Qed.
Lemma tangent_Minus rho d a b : tangent rho d (Minus a b) = tangent rho d a - tangent rho d b.
Proof. unfold Minus. cbn [tangent]. rewrite tangent_Neg. lra. Qed.

(** Chain rule: from the derivatives with respect to finitely many symbols. *)
Lemma tangent_sum rho n (c : nat -> R) (d : nat -> env) e :
  tangent rho (fun a => rsum n (fun k => c k * d k a)) e = rsum n (fun k => c k * tangent rho (d k) e).
Proof.
  induction n.
  - apply tangent_zero.
  - cbn [rsum]. rewrite <- IHn, Rplus_comm, <- tangent_lin. apply tangent_ext. intros a _. ring.
Qed.
Lemma tangent_chain rho d (s : nat -> atom) n e :
  (forall i j, (i < n)%nat -> (j < n)%nat -> s i = s j -> i = j) ->
  (forall a, In a (atoms e) -> d a = 0 \/ exists i, (i < n)%nat /\ a = s i) ->
  tangent rho d e = rsum n (fun k => d (s k) * eval rho (diff (s k) e)).
Proof.
  intros Hinj Hat.
  transitivity (rsum n (fun k => d (s k) * tangent rho (unit_env (s k)) e)).
  2:{ apply rsum_ext. intros k _. now rewrite eval_diff. }
  rewrite <- tangent_sum. apply tangent_ext. intros a Ha.
  destruct (Hat a Ha) as [H0 | (i & Hi & ->)].
  - rewrite H0. symmetry. apply rsum_zero. intros k Hk. unfold unit_env.
    destruct (atom_eq_dec a (s k)) as [->|]; [rewrite H0; ring | ring].
  - symmetry.
    transitivity (rsum n (fun k => if (k =? i)%nat then d (s i) else 0)).
    + apply rsum_ext. intros k Hk. unfold unit_env.
      destruct (atom_eq_dec (s i) (s k)) as [E|E].
      * apply Hinj in E; auto. subst. rewrite Nat.eqb_refl. ring.
      * destruct (Nat.eqb_spec k i); [subst; congruence | ring].
    + clear - Hi. induction n; [lia|]. cbn [rsum]. destruct (Nat.eqb_spec n i).
      * subst. rewrite rsum_zero; [ring|]. intros k Hk. destruct (Nat.eqb_spec k i); [lia|reflexivity].
      * rewrite IHn by lia. ring.
Qed.

(** ** Along a path *)
Lemma tangent_derive (g : R -> env) (t0 : R) (d : env) e :
  smooth_at (g t0) e ->
  (forall a, In a (atoms e) -> is_derive (fun t => g t a) t0 (d a)) ->
  is_derive (fun t => eval (g t) e) t0 (tangent (g t0) d e).
Proof.
  induction e; cbn [eval tangent smooth_at atoms]; intros Hs Hd.
  - apply @is_derive_const.
  - apply Hd. now left.
  - destruct Hs. apply @is_derive_plus; auto using in_or_app.
  - destruct Hs. 
    assert (A := IHe1 H ltac:(auto using in_or_app)). assert (B := IHe2 H0 ltac:(auto using in_or_app)).
    apply is_derive_ext with (f := fun t => mult (eval (g t) e1) (eval (g t) e2)); [reflexivity|].
    replace (tangent (g t0) d e1 * eval (g t0) e2 + eval (g t0) e1 * tangent (g t0) d e2)
      with (plus (mult (tangent (g t0) d e1) (eval (g t0) e2)) (mult (eval (g t0) e1) (tangent (g t0) d e2))) by reflexivity.
    apply @is_derive_mult; auto. intros. apply Rmult_comm.
  - destruct Hs as [Hs Hf]. specialize (IHe Hs Hd).
    assert (B := locally_singleton _ _ (Hf k)). cbn beta in B.
    rewrite Rmult_comm. apply (is_derive_comp (f k) (fun t => eval (g t) e) t0); auto.
Qed.
Lemma smooth_diff rho s e : smooth_at rho e -> smooth_at rho (diff s e).
Proof.
  induction e; cbn [smooth_at diff]; auto; try tauto.
  destruct (atom_eq_dec a s); cbn; auto.
Qed.
Lemma smooth_ddt rho e : smooth_at rho e -> smooth_at rho (ddt e).
Proof. induction e; cbn [smooth_at ddt]; auto; try tauto. destruct a; cbn; auto. Qed.
Lemma smooth_esum rho n f : (forall i, (i < n)%nat -> smooth_at rho (f i)) -> smooth_at rho (esum n f).
Proof. induction n; cbn [esum smooth_at]; intros H; [exact I | split; [apply IHn; auto | apply H; lia]]. Qed.
Lemma smooth_Neg rho e : smooth_at rho e -> smooth_at rho (Neg e).
Proof. cbn. auto. Qed.
Lemma smooth_Minus rho a b : smooth_at rho a -> smooth_at rho b -> smooth_at rho (Minus a b).
Proof. cbn. auto. Qed.

(** Expressions of equal value on an open set have equal derivatives. *)
Lemma tangent_value D e e' rho d : line_open D -> D rho -> smooth_at rho e -> smooth_at rho e' ->
  (forall r, D r -> eval r e = eval r e') -> tangent rho d e = tangent rho d e'.
Proof.
  intros Ho Hr He He' H.
  assert (Z : forall x : env, (fun a => x a + 0 * d a) = x).
  { intros x. apply FunctionalExtensionality.functional_extensionality. intros a. ring. }
  assert (P : forall ex, smooth_at rho ex -> is_derive (fun t => eval (fun a => rho a + t * d a) ex) 0 (tangent rho d ex)).
  { intros ex Hex. pose proof (tangent_derive (fun t a => rho a + t * d a) 0 d ex) as T. cbn beta in T.
    rewrite Z in T. apply T; auto. intros a _. auto_derive; auto. ring. }
  rewrite <- (is_derive_unique _ _ _ (P e He)), <- (is_derive_unique _ _ _ (P e' He')).
  apply Derive_ext_loc. specialize (Ho rho d Hr). revert Ho. apply filter_imp. intros x Hx. apply H, Hx.
Qed.
Lemma diff_value D e e' rho s : line_open D -> D rho -> smooth_at rho e -> smooth_at rho e' ->
  (forall r, D r -> eval r e = eval r e') -> eval rho (diff s e) = eval rho (diff s e').
Proof. intros. rewrite !eval_diff. eapply tangent_value; eauto. Qed.
Lemma ddt_value D e e' rho : line_open D -> D rho -> smooth_at rho e -> smooth_at rho e' ->
  (forall r, D r -> eval r e = eval r e') -> eval rho (ddt e) = eval rho (ddt e').
Proof. intros. rewrite !eval_ddt. eapply tangent_value; eauto. Qed.

(** The symbolic derivatives are the derivatives. *)
Lemma partial_diff rho a e : smooth_at rho e -> partial (fun r => eval r e) a rho = eval rho (diff a e).
Proof.
  intros Hs. unfold partial. apply is_derive_unique. rewrite eval_diff.
  assert (E : upd rho a (rho a) = rho).
  { apply FunctionalExtensionality.functional_extensionality. intros b. unfold upd.
    destruct (atom_eq_dec b a); subst; reflexivity. }
  pose proof (tangent_derive (upd rho a) (rho a) (unit_env a) e) as T. rewrite E in T. apply T; auto.
  intros b _. unfold upd, unit_env. destruct (atom_eq_dec b a).
  - apply @is_derive_id.
  - apply @is_derive_const.
Qed.
Lemma ddt_derive g t e : motion g -> smooth_at (g t) e -> is_derive (fun s => eval (g s) e) t (eval (g t) (ddt e)).
Proof.
  intros [Hd Hc] Hs. rewrite eval_ddt. apply tangent_derive; auto.
  intros a _. destruct a as [n | n k]; cbn [next_env].
  - apply is_derive_ext with (f := fun _ => g t (Static n)); [intros; apply Hc | apply @is_derive_const].
  - apply Hd.
Qed.

(** ** Atoms of derivatives *)
Lemma atoms_diff s e a : In a (atoms (diff s e)) -> In a (atoms e).
Proof.
  induction e; cbn [diff atoms]; rewrite ?in_app_iff; try tauto.
  destruct (atom_eq_dec a0 s); cbn; tauto.
Qed.
Lemma atoms_ddt e a : In a (atoms (ddt e)) -> In a (atoms e) \/ exists n k, a = Dyn n (S k) /\ In (Dyn n k) (atoms e).
Proof.
  induction e as [r | b | e1 IH1 e2 IH2 | e1 IH1 e2 IH2 | f k e IH]; cbn [ddt atoms]; rewrite ?in_app_iff.
  - tauto.
  - destruct b; cbn [atoms In].
    + tauto.
    + intros [<- | []]. right. exists name, level. auto.
  - intros [H | H]; [apply IH1 in H | apply IH2 in H]; destruct H as [H | (n & k & ? & ?)]; auto;
      right; exists n, k; rewrite in_app_iff; auto.
  - rewrite ?in_app_iff. intros [[H | H] | [H | H]]; auto; [apply IH1 in H | apply IH2 in H]; destruct H as [H | (n & k & ? & ?)]; auto;
      right; exists n, k; rewrite in_app_iff; auto.
  - intros [H | H]; auto.
Qed.
Lemma up_to_diff k s e : up_to k e -> up_to k (diff s e).
Proof. intros H n j Hj. apply atoms_diff in Hj. eauto. Qed.
Lemma up_to_ddt k e : up_to k e -> up_to (S k) (ddt e).
Proof.
  intros H n j Hj. apply atoms_ddt in Hj. destruct Hj as [Hj | (n' & k' & E & Hj)].
  - apply H in Hj. lia.
  - inversion E; subst. apply H in Hj. lia.
Qed.

(** ** Accelerations *)
Lemma qd_inj qs k i j : NoDup qs -> (i < length qs)%nat -> (j < length qs)%nat -> qd qs k i = qd qs k j -> i = j.
Proof.
  intros Hn Hi Hj E. unfold qd in E. inversion E as [E']. 
  apply (proj1 (NoDup_nth qs ""%string) Hn); auto.
Qed.
Lemma up_to_no_qdd qs k i e : up_to 1 e -> (2 <= k)%nat -> ~ In (qd qs k i) (atoms e).
Proof. intros H Hk Hi. apply H in Hi. lia. Qed.
(** The derivative by q'' of d/dt e is that of e by q'. *)
Lemma diff_qdd_ddt rho qs j e : up_to 1 e -> eval rho (diff (qd qs 2 j) (ddt e)) = eval rho (diff (qd qs 1 j) e).
Proof.
  induction e as [r | b | e1 IH1 e2 IH2 | e1 IH1 e2 IH2 | f k e IH]; intros Hu.
  - reflexivity.
  - destruct b as [n | n l]; cbn [ddt diff].
    + destruct (atom_eq_dec (Static n) (qd qs 1 j)) as [E|]; [discriminate | reflexivity].
    + unfold qd. destruct (atom_eq_dec (Dyn n (S l)) (Dyn (nth j qs ""%string) 2)) as [E|E];
        destruct (atom_eq_dec (Dyn n l) (Dyn (nth j qs ""%string) 1)) as [E'|E']; try reflexivity; exfalso.
      * inversion E; subst. now apply E'.
      * inversion E'; subst. now apply E.
  - cbn [ddt diff eval]. rewrite IH1, IH2; [reflexivity | |]; intros n l Hl; apply (Hu n l); cbn; rewrite in_app_iff; auto.
  - assert (U1 : up_to 1 e1) by (intros n l Hl; apply (Hu n l); cbn; rewrite in_app_iff; auto).
    assert (U2 : up_to 1 e2) by (intros n l Hl; apply (Hu n l); cbn; rewrite in_app_iff; auto).
    cbn [ddt diff eval]. rewrite IH1, IH2 by auto.
    rewrite (diff_none rho (qd qs 2 j) e1), (diff_none rho (qd qs 2 j) e2) by (apply up_to_no_qdd; auto). ring.
  - assert (U1 : up_to 1 e) by (intros n l Hl; apply (Hu n l); auto).
    cbn [ddt diff eval]. rewrite IH by auto.
    rewrite (diff_none rho (qd qs 2 j) e) by (apply up_to_no_qdd; auto). ring.
Qed.
Lemma eval_qdd_zero_none rho qs e : (forall n, In n qs -> ~ In (Dyn n 2) (atoms e)) -> eval rho (qdd_zero qs e) = eval rho e.
Proof.
  induction e as [r | b | e1 IH1 e2 IH2 | e1 IH1 e2 IH2 | f k e IH]; cbn [qdd_zero eval atoms]; intros H; auto.
  - destruct (in_dec atom_eq_dec b (map (fun n => Dyn n 2) qs)) as [Hb|]; [|reflexivity].
    apply in_map_iff in Hb. destruct Hb as (n & <- & Hn). exfalso. apply (H n Hn). now left.
  - rewrite IH1, IH2; auto; intros n Hn X; apply (H n Hn), in_or_app; auto.
  - rewrite IH1, IH2; auto; intros n Hn X; apply (H n Hn), in_or_app; auto.
  - rewrite IH; auto.
Qed.
Lemma rsum_pick n i (x : R) : (i < n)%nat -> rsum n (fun k => if (k =? i)%nat then x else 0) = x.
Proof.
  induction n; [lia|]. intros Hi. cbn [rsum]. destruct (Nat.eqb_spec n i).
  - subst. rewrite rsum_zero; [ring|]. intros k Hk. destruct (Nat.eqb_spec k i); [lia|reflexivity].
  - rewrite IHn by lia. ring.
Qed.
(** d/dt e is affine in the accelerations. *)
Lemma ddt_affine rho qs e : NoDup qs -> up_to 1 e ->
  eval rho (ddt e) = rsum (length qs) (fun j => rho (qd qs 2 j) * eval rho (diff (qd qs 1 j) e)) + eval rho (qdd_zero qs (ddt e)).
Proof.
  intros Hn. induction e as [r | b | e1 IH1 e2 IH2 | e1 IH1 e2 IH2 | f k e IH]; intros Hu.
  - cbn. rewrite rsum_zero; [ring|]. intros; ring.
  - destruct b as [n | n l].
    + cbn [ddt diff eval qdd_zero]. rewrite rsum_zero; [ring|]. intros i Hi.
      destruct (atom_eq_dec (Static n) (qd qs 1 i)) as [E|]; [discriminate | cbn; ring].
    + cbn [ddt eval qdd_zero].
      destruct (in_dec atom_eq_dec (Dyn n (S l)) (map (fun n => Dyn n 2) qs)) as [H | H].
      * apply in_map_iff in H. destruct H as (n' & E & H). inversion E; subst.
        apply (In_nth _ _ ""%string) in H. destruct H as (i & Hi & <-).
        cbn [eval]. rewrite Rplus_0_r. symmetry.
        rewrite <- (rsum_pick (length qs) i (rho (Dyn (nth i qs ""%string) 2)) Hi). apply rsum_ext. intros k Hk.
        cbn [diff]. unfold qd. destruct (atom_eq_dec (Dyn (nth i qs ""%string) 1) (Dyn (nth k qs ""%string) 1)) as [E1|E1].
        -- inversion E1 as [E2]. apply (proj1 (NoDup_nth qs ""%string) Hn) in E2; auto. subst. rewrite Nat.eqb_refl. cbn. ring.
        -- destruct (Nat.eqb_spec k i); [subst; congruence | cbn; ring].
      * cbn [eval]. rewrite rsum_zero; [ring|]. intros i Hi. cbn [diff].
        destruct (atom_eq_dec (Dyn n l) (qd qs 1 i)) as [E|]; [|cbn; ring].
        exfalso. apply H. unfold qd in E. inversion E; subst. apply in_map_iff. exists (nth i qs ""%string). split; auto. apply nth_In; auto.
  - cbn [ddt diff eval qdd_zero]. rewrite IH1, IH2; try (intros n l Hl; apply (Hu n l); cbn; rewrite in_app_iff; auto).
    rewrite (rsum_ext _ (fun j => rho (qd qs 2 j) * (eval rho (diff (qd qs 1 j) e1) + eval rho (diff (qd qs 1 j) e2)))
       (fun j => rho (qd qs 2 j) * eval rho (diff (qd qs 1 j) e1) + rho (qd qs 2 j) * eval rho (diff (qd qs 1 j) e2))) by (intros; ring).
    rewrite rsum_plus. ring.
  - assert (U1 : up_to 1 e1) by (intros n l Hl; apply (Hu n l); cbn; rewrite in_app_iff; auto).
    assert (U2 : up_to 1 e2) by (intros n l Hl; apply (Hu n l); cbn; rewrite in_app_iff; auto).
    cbn [ddt diff eval qdd_zero]. rewrite IH1, IH2 by auto.
    rewrite !(eval_qdd_zero_none rho qs e1), !(eval_qdd_zero_none rho qs e2)
      by (intros n Hq Hin; first [apply U1 in Hin | apply U2 in Hin]; lia).
    rewrite (rsum_ext _ (fun j => rho (qd qs 2 j) * (eval rho (diff (qd qs 1 j) e1) * eval rho e2 + eval rho e1 * eval rho (diff (qd qs 1 j) e2)))
       (fun j => eval rho e2 * (rho (qd qs 2 j) * eval rho (diff (qd qs 1 j) e1)) + eval rho e1 * (rho (qd qs 2 j) * eval rho (diff (qd qs 1 j) e2)))) by (intros; ring).
    rewrite rsum_plus, !rsum_scal. ring.
  - assert (U1 : up_to 1 e) by (intros n l Hl; apply (Hu n l); auto).
    cbn [ddt diff eval qdd_zero]. rewrite IH by auto.
    rewrite !(eval_qdd_zero_none rho qs e) by (intros n Hq Hin; apply U1 in Hin; lia).
    rewrite (rsum_ext _ (fun j => rho (qd qs 2 j) * (f (S k) (eval rho e) * eval rho (diff (qd qs 1 j) e)))
       (fun j => f (S k) (eval rho e) * (rho (qd qs 2 j) * eval rho (diff (qd qs 1 j) e)))) by (intros; ring).
    rewrite rsum_scal. ring.
Qed.
