From Coq Require Import String Lia Lra FunctionalExtensionality.
From Coquelicot Require Import Coquelicot.
From Verif Require Import Prelude PreludeFacts PwInterpModel SymModel SymSpec SymProofs LagrModel LagrSpec LagrFacts LagrProofs LagrRhsProofs LagrEqModel LagrEqSpec.
From Verif Require PwInterpProofs.
Open Scope R_scope.
Open Scope list_scope.

(** ** The derivative by t *)
Definition next_t (rho : env) : env := fun a => match a with Static n => if (n =? "t")%string then 1 else 0 | Dyn n k => rho (Dyn n (S k)) end.
Lemma eval_ddt_t rho e : eval rho (ddt_t e) = tangent rho (next_t rho) e.
Proof.
  induction e as [r|a|e1 IH1 e2 IH2|e1 IH1 e2 IH2|f k e IH]; cbn [ddt_t eval tangent]; rewrite ?IH1, ?IH2, ?IH; auto.
  destruct a as [n|n k]; cbn [next_t]; [destruct (n =? "t")%string|]; reflexivity.
Qed.
Lemma ddt_t_split rho e : eval rho (ddt_t e) = eval rho (ddt e) + eval rho (diff time e).
Proof.
  rewrite eval_ddt_t, eval_ddt, eval_diff.
  rewrite (tangent_ext rho (next_t rho) (fun a => 1 * next_env rho a + unit_env time a)); [rewrite tangent_lin; ring|].
  intros [n|n k] _; unfold unit_env, next_t, next_env.
  - destruct (atom_eq_dec (Static n) time) as [E|E].
    + injection E as ->. cbn. ring.
    + destruct (String.eqb_spec n "t"); [subst; now elim E|ring].
  - destruct (atom_eq_dec (Dyn n k) time) as [E|]; [discriminate|ring].
Qed.
Lemma ddt_t_derive g t e : timed_motion g -> smooth_at (g t) e -> is_derive (fun s => eval (g s) e) t (eval (g t) (ddt_t e)).
Proof.
  intros (Hd & Hc & Ht) Hs. rewrite eval_ddt_t. apply tangent_derive; auto.
  intros [n|n k] _; cbn [next_t]; [|apply Hd].
  destruct (String.eqb_spec n "t") as [->|N].
  - apply is_derive_ext with (f := fun s => s); [intros; symmetry; apply Ht|apply @is_derive_id].
  - apply is_derive_ext with (f := fun _ => g t (Static n)); [intros; now apply Hc|apply @is_derive_const].
Qed.
Lemma smooth_ddt_t rho e : smooth_at rho e -> smooth_at rho (ddt_t e).
Proof. induction e as [r|a| | |]; cbn [smooth_at ddt_t]; auto; try tauto. destruct a as [n|]; [destruct (n =? "t")%string|]; cbn; auto. Qed.
Lemma ddt_t_value D e e' rho : line_open D -> D rho -> smooth_at rho e -> smooth_at rho e' ->
  (forall r, D r -> eval r e = eval r e') -> eval rho (ddt_t e) = eval rho (ddt_t e').
Proof. intros. rewrite !eval_ddt_t. eapply tangent_value; eauto. Qed.
Lemma atoms_ddt_t e a : In a (atoms (ddt_t e)) -> In a (atoms e) \/ exists n k, a = Dyn n (S k) /\ In (Dyn n k) (atoms e).
Proof.
  induction e as [r | b | e1 IH1 e2 IH2 | e1 IH1 e2 IH2 | f k e IH]; cbn [ddt_t atoms]; rewrite ?in_app_iff.
  - tauto.
  - destruct b as [n|name level]; cbn [atoms In].
    + destruct (n =? "t")%string; cbn [atoms In]; tauto.
    + intros [<- | []]. right. exists name, level. auto.
  - intros [H | H]; [apply IH1 in H | apply IH2 in H]; destruct H as [H | (n & k & ? & ?)]; auto;
      right; exists n, k; rewrite in_app_iff; auto.
  - rewrite ?in_app_iff. intros [[H | H] | [H | H]]; auto; [apply IH1 in H | apply IH2 in H]; destruct H as [H | (n & k & ? & ?)]; auto;
      right; exists n, k; rewrite in_app_iff; auto.
  - intros [H | H]; auto.
Qed.
Lemma outside_absent a e : ~ In a (atoms e) -> outside a e.
Proof. induction e; cbn [atoms outside]; rewrite ?in_app_iff; tauto. Qed.
Lemma outside_ddt_t a e : ~ In a (atoms e) -> outside a (ddt_t e).
Proof.
  induction e as [r | b | e1 IH1 e2 IH2 | e1 IH1 e2 IH2 | f k e IH]; cbn [ddt_t atoms outside]; rewrite ?in_app_iff; try tauto.
  - destruct b as [n|]; [destruct (n =? "t")%string|]; cbn; auto.
  - intros H. repeat split; try (apply outside_absent; tauto); tauto.
Qed.

(** ** One equation *)
Section One.
Variables (simplify expand : expr -> expr) (D : env -> Prop).
Hypothesis Ks : keeps_values D simplify.
Hypothesis Ke : keeps_values D expand.
Hypothesis Do : line_open D.
(** the same without simplification *)
Definition plain_eq (L : expr) (n : string) (k : nat) : expr := Minus (ddt_t (diff (Dyn n (S k)) L)) (diff (Dyn n k) L).
Lemma on_diff a L : smooth_on D L -> smooth_on D (diff a L).
Proof. intros H rho Hr. apply smooth_diff, H, Hr. Qed.
Lemma on_ddt_t L : smooth_on D L -> smooth_on D (ddt_t L).
Proof. intros H rho Hr. apply smooth_ddt_t, H, Hr. Qed.
Lemma on_Minus L M : smooth_on D L -> smooth_on D M -> smooth_on D (Minus L M).
Proof. intros H H' rho Hr. apply smooth_Minus; auto. Qed.
Lemma lagrange_parts L n k e : smooth_on D L -> lagrange_eq simplify expand L (Dyn n k) = Ok e ->
  smooth_on D e /\ (forall rho, D rho -> eval rho e = eval rho (plain_eq L n k)) /\
  (forall a, In a (atoms e) -> In a (atoms L) \/ exists m j, a = Dyn m (S j) /\ In (Dyn m j) (atoms L)) /\
  (forall a, ~ In a (atoms L) -> outside a e).
Proof.
  intros SL E. cbn [lagrange_eq] in E. injection E as <-.
  destruct (Ks _ (on_diff (Dyn n (S k)) _ SL)) as (S1 & V1 & A1 & O1). set (p := simplify (diff (Dyn n (S k)) L)) in *.
  destruct (Ks _ (on_ddt_t _ S1)) as (S2 & V2 & A2 & O2). set (l1 := simplify (ddt_t p)) in *.
  destruct (Ks _ (on_diff (Dyn n k) _ SL)) as (S3 & V3 & A3 & O3). set (l2 := simplify (diff (Dyn n k) L)) in *.
  destruct (Ks _ (on_Minus _ _ S2 S3)) as (S4 & V4 & A4 & O4).
  destruct (Ke _ S4) as (S5 & V5 & A5 & O5). split; [exact S5|]. split; [|split].
  - intros rho Hr. rewrite V5, V4, !eval_Minus, V2, V3 by auto. unfold plain_eq. rewrite eval_Minus. f_equal.
    apply (ddt_t_value D); auto. apply smooth_diff, SL, Hr.
  - intros a Ha. apply A5, A4 in Ha. unfold Minus, Neg in Ha. cbn [atoms] in Ha. rewrite in_app_iff in Ha. destruct Ha as [Ha|Ha].
    + apply A2, atoms_ddt_t in Ha. destruct Ha as [Ha|(m & j & -> & Ha)].
      * left. eapply atoms_diff, A1, Ha.
      * right. exists m, j. split; auto. eapply atoms_diff, A1, Ha.
    + left. eapply atoms_diff, A3, Ha.
  - intros a Ha. apply O5, O4. unfold Minus, Neg. cbn [outside]. split; [|split; [exact I|]].
    + apply O2, outside_ddt_t. intros X. now apply Ha, (atoms_diff (Dyn n (S k))), A1.
    + apply outside_absent. intros X. now apply Ha, (atoms_diff (Dyn n k)), A3.
Qed.
Lemma plain_motion L n k g t : smooth_on D L -> timed_motion g -> locally t (fun s => D (g s)) ->
  eval (g t) (plain_eq L n k) = lagrange_value (fun r => eval r L) n k g t.
Proof.
  intros SL Hm Hl. assert (Hd : D (g t)) by (apply (locally_singleton _ _ Hl)).
  unfold plain_eq, lagrange_value. rewrite eval_Minus, partial_diff by auto. f_equal. symmetry.
  rewrite (Derive_ext_loc _ (fun r => eval (g r) (diff (Dyn n (S k)) L))).
  - apply is_derive_unique, ddt_t_derive; auto. apply smooth_diff; auto.
  - revert Hl. apply filter_imp. intros s Hs. apply partial_diff. auto.
Qed.

(** ** All of them *)
Variables (T U : expr).
Hypothesis ST : smooth_on D T.
Hypothesis SU : smooth_on D U.
Notation get := (get_lagr_eqs simplify expand T U).
Lemma L_smooth : smooth_on D (Minus T U).
Proof. now apply on_Minus. Qed.
Lemma get_parts qs eqs i : get qs = Ok eqs -> (i < length (coordinate_list qs))%nat -> exists n k, nth i (coordinate_list qs) (Static "") = Dyn n k /\
  smooth_on D (nth i eqs (Num 0)) /\ (forall rho, D rho -> eval rho (nth i eqs (Num 0)) = eval rho (plain_eq (Minus T U) n k)) /\
  (forall a, In a (atoms (nth i eqs (Num 0))) -> In a (atoms (Minus T U)) \/ exists m j, a = Dyn m (S j) /\ In (Dyn m j) (atoms (Minus T U))) /\
  (forall a, ~ In a (atoms (Minus T U)) -> outside a (nth i eqs (Num 0))).
Proof.
  intros E Hi. unfold get_lagr_eqs in E. destruct (PwInterpProofs.mapm_ok _ _ _ E) as [_ H]. specialize (H i (Static "") (Num 0) Hi).
  destruct (nth i (coordinate_list qs) (Static "")) as [|n k]; [discriminate|]. exists n, k. split; [reflexivity|].
  destruct (lagrange_eq simplify expand (Minus T U) (Dyn n k)) as [e|] eqn:Ee; cbn [rbind] in H; [|discriminate]. injection H as <-.
  destruct (lagrange_parts _ _ _ _ L_smooth Ee) as (S1 & V1 & A1 & O1). destruct (Ks _ S1) as (S2 & V2 & A2 & O2).
  split; [exact S2|]. split; [|split].
  - intros rho Hr. rewrite V2, V1; auto.
  - intros a Ha. apply A1, A2, Ha.
  - intros a Ha. apply O2, O1, Ha.
Qed.
Theorem equations_motion qs eqs : get qs = Ok eqs ->
  length eqs = length (coordinate_list qs) /\
  forall g t, timed_motion g -> locally t (fun s => D (g s)) -> forall i, (i < length eqs)%nat -> exists n k, nth i (coordinate_list qs) (Static "") = Dyn n k /\
  eval (g t) (nth i eqs (Num 0)) = lagrange_value (fun r => eval r T - eval r U) n k g t.
Proof.
  intros E. assert (L : length eqs = length (coordinate_list qs)) by (apply (PwInterpProofs.mapm_ok _ _ _ E)). split; [exact L|].
  intros g t Hm Hl i Hi. rewrite L in Hi. destruct (get_parts qs eqs i E Hi) as (n & k & En & S1 & V1 & _). exists n, k. split; [exact En|].
  rewrite V1 by (apply (locally_singleton _ _ Hl)). rewrite (plain_motion _ _ _ _ _ L_smooth Hm Hl).
  f_equal. apply functional_extensionality. intros r. apply eval_Minus.
Qed.
End One.

(** ** Accepted and refused *)
Theorem equations_accepted simplify expand T U qs : (exists eqs, get_lagr_eqs simplify expand T U qs = Ok eqs) <-> (forall a, In a (coordinate_list qs) -> exists n k, a = Dyn n k).
Proof.
  unfold get_lagr_eqs. induction (coordinate_list qs) as [|a l IH]; cbn [mapm].
  - split; [intros _ a []|eauto].
  - destruct a as [s|n k]; cbn [lagrange_eq rbind].
    + split; [intros [e H]; discriminate|intros H; destruct (H (Static s) (or_introl eq_refl)) as (? & ? & ?); discriminate].
    + split.
      * intros [eqs H] a [<-|Ha]; [eauto|]. destruct (mapm _ l) as [es|] eqn:E in H; [|discriminate]. apply (proj1 IH); [eauto|auto].
      * intros H. destruct (proj2 IH) as [es E]; [intros a Ha; apply H; now right|]. rewrite E. cbn [rbind]. eauto.
Qed.
