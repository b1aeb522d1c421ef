(** Systems for the examples on inverse dynamics. *)
From Coq Require Import String FunctionalExtensionality ClassicalEpsilon.
From Coquelicot Require Import Coquelicot.
From Verif Require Import Prelude PreludeFacts PwInterpModel SymModel SymSpec SymProofs LagrModel LagrSpec LagrFacts LagrProofs LagrAlgebra LagrMoreProofs LagrMotionProofs LagrExamples PinvModel PinvSpec PinvProofs.
Open Scope R_scope.
Open Scope list_scope.

(** ** What the function returns *)
Lemma seq_nth_map {A} (g : atom -> A) us d : map (fun k => g (nth k us d)) (seq 0 (length us)) = map g us.
Proof.
  apply nth_ext with (d := g d) (d' := g d); rewrite !map_length, seq_length; auto. intros k Hk. rewrite nth_map_seq by auto. symmetry. apply map_nth.
Qed.
Theorem num_pinv_controls pinv tidy s us E h g t F :
  tidies tidy -> simp_num_pinv_dyn pinv tidy true s us = Ok F ->
  NoDup (lg_qs s) -> up_to 1 (lg_L s) -> (forall i, (i < lg_n s)%nat -> no_acc (lg_qs s) (lg_forces s i)) ->
  motion g -> (forall x, smooth_at (g x) (lg_L s)) -> affine_controls s us (g t) E h ->
  (forall k l, (k < length us)%nat -> (l < length us)%nat ->
     rsum (lg_n s) (fun i => ev (g t) (pinv (lg_n s) (length us) (pinv_E s us)) k i * E i l) = delta k l) ->
  (forall i, (i < lg_n s)%nat -> euler_lagrange (fun r => eval r (lg_L s)) (lg_qs s) i g t = eval (g t) (lg_forces s i)) ->
  exists ps, (forall x, In x ps <-> x <> "dummy"%string /\ ~ In (Static x) us /\ exists i, (i < lg_n s)%nat /\ has_name x (tidy (emulv (lg_n s) (m_d s) (f_d s) i))) /\
  ((forall k, (k < length us)%nat -> only_args s ps (tidy (sym_pinv_dyn_simp pinv s us k))) ->
   F (values_of s 0 (g t)) (values_of s 1 (g t)) (values_of s 2 (g t)) (map (fun x => g t (Static x)) ps) = Ok (map (g t) us)).
Proof.
  intros HT HF ND UP NA MO SM AF HP HE. destruct (num_pinv_call pinv tidy s us F HT HF) as (ps & _ & _ & IN & CALL).
  exists ps. split; [exact IN|]. intros OA. destruct (CALL (g t)) as [C _]. rewrite (C OA). f_equal.
  rewrite <- (seq_nth_map (g t) us (Static ""%string)). apply map_ext_in. intros k Hk. apply in_seq in Hk.
  apply (controls_recovered s us E h pinv g t ND UP NA MO SM AF HP HE). lia.
Qed.

(** ** Two bodies that go apart, the first one pushed *)
Definition hand : lagrange := slide L_free (fun i => match i with 0%nat => Var (Static "u_0") | _ => Num 0 end) opposite.
Definition hand_us : list atom := [Static "u_0"%string].
Definition hand_g (t : R) : env := fun a => if atom_eq_dec a (Static "u_0") then 1 else parting t a.
Definition hand_E (i k : nat) : R := match i with 0%nat => 1 | _ => 0 end.
(** The pseudoinverse of a column of length 1 is its transpose. *)
Definition pinv_tr (n k : nat) (A : emat) : emat := etr A.
Lemma hand_motion : motion hand_g.
Proof.
  split.
  - intros n k t. unfold hand_g. destruct (atom_eq_dec (Dyn n (S k)) (Static "u_0")) as [E|_]; [discriminate E|].
    apply (is_derive_ext (fun s => parting s (Dyn n k))); [|apply (proj1 parting_motion)].
    intros s. destruct (atom_eq_dec (Dyn n k) (Static "u_0")) as [E|_]; [discriminate E|reflexivity].
  - intros n t t'. unfold hand_g. destruct (atom_eq_dec _ _); auto.
Qed.
Lemma hand_affine rho : affine_controls hand hand_us rho hand_E (fun _ => 0).
Proof.
  split; [|split].
  - constructor; [intros [] | constructor].
  - intros u [<-|[]]; (split; [|left; eexists; reflexivity]); cbn; intros H; repeat destruct H as [H|H]; try contradiction; discriminate H.
  - intros v i Hi _. cbn in Hi. destruct i as [|[|i]]; [| |lia]; cbn; ring.
Qed.
Lemma hand_noacc i : no_acc (lg_qs hand) (lg_forces hand i).
Proof. intros nm k _ _ H. destruct i as [|i]; cbn in H; [destruct H as [H|[]]; discriminate H | contradiction]. Qed.
Lemma hand_pinv rho k l : (k < 1)%nat -> (l < 1)%nat -> rsum 2 (fun i => ev rho (pinv_tr 2 1 (pinv_E hand hand_us)) k i * hand_E i l) = delta k l.
Proof. intros Hk Hl. assert (k = 0)%nat as -> by lia. assert (l = 0)%nat as -> by lia. unfold ev, pinv_tr, etr. cbn. unfold delta. cbn. ring. Qed.
Lemma hand_obeys t : obeys hand hand_g t (fun _ => - / 2).
Proof.
  intros i Hi. rewrite euler_lagrange_value by (auto using hand_motion; intros; apply L_free_smooth).
  assert (Sc : smooth_at (hand_g t) opposite) by (cbn; auto).
  assert (Hi2 : i = 0%nat \/ i = 1%nat) by (cbn in Hi; lia).
  replace (rsum (length (lg_coneqs hand)) _) with (- / 2).
  - destruct Hi2 as [->| ->]; cbn; unfold hand_g; cbn; unfold par; field.
  - cbn [hand slide lg_coneqs length rsum nth]. rewrite partial_diff by auto. destruct Hi2 as [->| ->]; cbn; ring.
Qed.
Lemma hand_constrained t : constrained hand (hand_g t).
Proof. intros k Hk. cbn in Hk. assert (k = 0)%nat as -> by lia. cbn. unfold hand_g. cbn. unfold par. field. Qed.
Lemma hand_wrong (t : R) : eval (hand_g t) (sym_pinv_dyn_simp pinv_tr hand hand_us 0%nat) = / 2 /\ hand_g t (Static "u_0"%string) = 1.
Proof. split; [|reflexivity]. unfold sym_pinv_dyn_simp, pinv_tr, etr. cbn. unfold hand_g. cbn. unfold par. field. Qed.

(** ** A mass m with a spring k: m q'' + k q = u *)
Definition spring : lagrange :=
  {| lg_L := Plus (Times (Num (/ 2)) (Times (Var (Static "m")) (sq (q_ 0 1)))) (Times (Num (- / 2)) (Times (Var (Static "k")) (sq (q_ 0 0))));
     lg_qs := ["q_0"%string]; lg_forces := fun _ => Var (Static "u_0"); lg_coneqs := [] |}.
Definition spring_us : list atom := [Static "u_0"%string].
(** Of matrices of one row and one column *)
Definition pinv1 (n k : nat) (A : emat) : emat := fun _ _ => Func recip 0 (A 0%nat 0%nat).
(** What sympy makes of the result: m q'' + k q; other expressions as they are *)
Definition spring_u : expr := Plus (Times (Var (Static "m")) (q_ 0 2)) (Times (Var (Static "k")) (q_ 0 0)).
Definition neat (e : expr) : expr :=
  if excluded_middle_informative (e = sym_pinv_dyn_simp pinv1 spring spring_us 0%nat) then spring_u else e.
Lemma neat_tidies : tidies neat.
Proof.
  intros e. unfold neat. destruct (excluded_middle_informative _) as [->|N]; [|split; [reflexivity|intros a Ha; exact Ha]]. split.
  - intros rho. unfold sym_pinv_dyn_simp, pinv1. rewrite eval_emulv. cbn [rsum eval lg_n spring lg_qs length]. rewrite recip0.
    replace (eval rho (pinv_E spring spring_us 0%nat 0%nat)) with 1 by (cbn; ring).
    rewrite eval_Minus, eval_emulv. cbn [rsum eval lg_n spring lg_qs length].
    replace (eval rho (m_d spring 0%nat 0%nat)) with (rho (Static "m"%string)) by (cbn; field).
    replace (eval rho (u_zero spring_us (f_d spring 0%nat))) with (- (rho (Static "k"%string) * rho (Dyn "q_0" 0))) by (cbn; field).
    unfold lg_q, qd. cbn [nth spring lg_qs]. unfold spring_u, q_. cbn [eval]. change ("q_" ++ str_nat 0)%string with "q_0"%string. field.
  - intros a Ha.
    assert (B : forallb (fun a => if in_dec atom_eq_dec a (atoms (sym_pinv_dyn_simp pinv1 spring spring_us 0%nat)) then true else false) (atoms spring_u) = true) by (vm_compute; reflexivity).
    rewrite forallb_forall in B. specialize (B a Ha). destruct (in_dec _ _ _) as [I|]; [exact I|discriminate].
Qed.
Lemma neat_result : neat (sym_pinv_dyn_simp pinv1 spring spring_us 0%nat) = spring_u.
Proof. unfold neat. destruct (excluded_middle_informative _); congruence. Qed.
(** The head of an expression. *)
Definition is_func_sum (e : expr) : bool := match e with Plus (Num _) (Times (Func _ _ _) _) => true | _ => false end.
Lemma neat_other e : is_func_sum e = false -> neat e = e.
Proof. intros H. unfold neat. destruct (excluded_middle_informative _) as [->|]; auto. discriminate H. Qed.
Definition spring_g (t : R) : env := fun a =>
  match a with
  | Static x => if string_dec x "m" then 2 else if string_dec x "k" then 3 else if string_dec x "u_0" then 2 else 0
  | Dyn nm k => if string_dec nm "q_0" then par 1 k t else 0
  end.
Lemma spring_motion : motion spring_g.
Proof.
  split; [|reflexivity]. intros nm k t. unfold spring_g. destruct (string_dec nm "q_0"); [apply par_derive|]. apply (is_derive_const (V := R_NormedModule) 0).
Qed.
Lemma spring_smooth rho : smooth_at rho (lg_L spring). Proof. cbn. tauto. Qed.
Lemma spring_up : up_to 1 (lg_L spring). Proof. unfold up_to. cbn. intros n j H. repeat destruct H as [H|H]; try contradiction; try discriminate H; injection H as <- <-; lia. Qed.
Lemma spring_noacc i : no_acc (lg_qs spring) (lg_forces spring i).
Proof. intros nm k _ _ H. cbn in H. destruct H as [H|[]]; discriminate H. Qed.
Lemma spring_affine rho : affine_controls spring spring_us rho delta (fun _ => 0).
Proof.
  split; [|split].
  - constructor; [intros [] | constructor].
  - intros u [<-|[]]; (split; [|left; eexists; reflexivity]); cbn; intros H; repeat destruct H as [H|H]; try contradiction; discriminate H.
  - intros v i Hi _. cbn in Hi. destruct i as [|i]; [|lia]. cbn. unfold delta. cbn. ring.
Qed.
Lemma spring_pinv rho k l : (k < 1)%nat -> (l < 1)%nat -> rsum 1 (fun i => ev rho (pinv1 1 1 (pinv_E spring spring_us)) k i * delta i l) = delta k l.
Proof.
  intros Hk Hl. assert (k = 0)%nat as -> by lia. assert (l = 0)%nat as -> by lia. unfold ev, pinv1. cbn [rsum eval]. rewrite recip0.
  replace (eval rho (pinv_E spring spring_us 0%nat 0%nat)) with 1 by (cbn; ring). unfold delta. cbn. field.
Qed.
Lemma spring_equation : euler_lagrange (fun r => eval r (lg_L spring)) (lg_qs spring) 0%nat spring_g 0 = eval (spring_g 0) (lg_forces spring 0%nat).
Proof.
  rewrite euler_lagrange_value by (auto using spring_motion; intros; apply spring_smooth). cbn. unfold par. field.
Qed.
Lemma spring_params : exhaustive_expr neat spring = Ok [Var (lg_q spring 1 0%nat); emulv 1 (m_d spring) (f_d spring) 0%nat] /\
  find_params [Var (lg_q spring 1 0%nat); emulv 1 (m_d spring) (f_d spring) 0%nat] spring_us = Ok ["m"; "k"]%string.
Proof.
  split; [|vm_compute; reflexivity]. unfold exhaustive_expr. cbn [lg_coneqs spring lg_n lg_qs length seq map app].
  rewrite neat_other by reflexivity. reflexivity.
Qed.
Lemma spring_F : simp_num_pinv_dyn pinv1 neat true spring spring_us =
  Ok (lambdify4 (q_vec spring 0) (q_vec spring 1) (q_vec spring 2) (map Static ["k"; "m"]%string) [spring_u]).
Proof.
  unfold simp_num_pinv_dyn. destruct spring_params as [-> E]. unfold simp_sym_pinv_dyn. cbn [negb rbind spring_us length seq map]. fold spring_us. rewrite neat_result, E. cbn [rbind].
  replace (existsb _ _) with false; [reflexivity|]. vm_compute. reflexivity.
Qed.
Lemma spring_args k ps : (k < 1)%nat -> In "k"%string ps -> In "m"%string ps -> only_args spring ps (neat (sym_pinv_dyn_simp pinv1 spring spring_us k)).
Proof.
  intros Hk Pk Pm a Ha. assert (k = 0)%nat as -> by lia. rewrite neat_result in Ha. destruct Ha as [<-|[<-|[<-|[<-|[]]]]].
  - right. eauto.
  - left. exists "q_0"%string, 2%nat. cbn. auto.
  - right. eauto.
  - left. exists "q_0"%string, 0%nat. cbn. auto.
Qed.
Lemma spring_made : exists F, simp_num_pinv_dyn pinv1 neat true spring spring_us = Ok F /\
  forall q v a k m, F [q] [v] [a] [k; m] = Ok [m * a + k * q].
Proof. eexists. split; [exact spring_F|]. intros q v a k m. reflexivity. Qed.
(** The same on a base that moves: y(t) is not a coordinate. *)
Definition moving : lagrange :=
  {| lg_L := Plus (Times (Num (/ 2)) (sq (q_ 0 1))) (Times (Num (- / 2)) (sq (Plus (q_ 0 0) (Var (Dyn "y" 0)))));
     lg_qs := ["q_0"%string]; lg_forces := fun _ => Var (Static "u_0"); lg_coneqs := [] |}.
Lemma moving_fails : simp_num_pinv_dyn pinv1 neat true moving spring_us = Err AttributeError.
Proof.
  apply num_pinv_made; try discriminate; try reflexivity; [cbn; lia|]. intros H. destruct (H 0%nat "y"%string 0%nat) as [[E|[]]|[E|[]]]; try discriminate E.
  - cbn; lia.
  - unfold used; rewrite neat_other by reflexivity. cbn. tauto.
Qed.
Lemma spring_hypotheses : NoDup (lg_qs spring) /\ up_to 1 (lg_L spring) /\ (forall i, no_acc (lg_qs spring) (lg_forces spring i)) /\
  motion spring_g /\ (forall x, smooth_at (spring_g x) (lg_L spring)) /\ affine_controls spring spring_us (spring_g 0) delta (fun _ => 0) /\
  (forall k l, (k < 1)%nat -> (l < 1)%nat -> rsum 1 (fun i => ev (spring_g 0) (pinv1 1 1 (pinv_E spring spring_us)) k i * delta i l) = delta k l) /\
  euler_lagrange (fun r => eval r (lg_L spring)) (lg_qs spring) 0%nat spring_g 0 = eval (spring_g 0) (lg_forces spring 0%nat) /\
  (forall k ps, (k < 1)%nat -> In "k"%string ps -> In "m"%string ps -> only_args spring ps (neat (sym_pinv_dyn_simp pinv1 spring spring_us k))).
Proof.
  split; [repeat constructor; intros []|]. split; [exact spring_up|]. split; [exact spring_noacc|]. split; [exact spring_motion|].
  split; [intros; apply spring_smooth|]. split; [apply spring_affine|]. split; [apply spring_pinv|]. split; [exact spring_equation|exact spring_args].
Qed.

(** ** What fails *)
Lemma implicit_constraints pinv tidy s us : lg_coneqs s <> [] -> us <> [] -> implicit_sym_pinv_dyn pinv tidy true s us = Err ValueError.
Proof. intros H U. unfold implicit_sym_pinv_dyn. cbn [negb]. destruct us; [congruence|]. destruct (lg_coneqs s); [congruence|reflexivity]. Qed.
Lemma num_constraints pinv tidy s us : lg_coneqs s <> [] -> us <> [] -> simp_num_pinv_dyn pinv tidy true s us = Err ValueError.
Proof.
  intros H U. unfold simp_num_pinv_dyn, simp_sym_pinv_dyn. cbn [negb]. destruct us; [congruence|]. cbn [rbind]. unfold exhaustive_expr. destruct (lg_coneqs s); [congruence|reflexivity].
Qed.
Lemma implicit_num pinv tidy formed s us F : implicit_num_pinv_dyn pinv tidy formed s us <> Ok F.
Proof. unfold implicit_num_pinv_dyn. destruct (implicit_sym_pinv_dyn _ _ _ _ _); discriminate. Qed.
Lemma mapm_length {A B} (f : A -> Res B) l : forall l', mapm f l = Ok l' -> length l' = length l.
Proof.
  induction l as [|a l IH]; intros l' H; cbn [mapm] in H; [injection H as <-; reflexivity|].
  destruct (f a); cbn [rbind] in H; [|discriminate]. destruct (mapm f l) as [l2|]; cbn [rbind] in H; [|discriminate]. injection H as <-. cbn. f_equal. apply IH. reflexivity.
Qed.
Lemma num_pinv_lengths pinv tidy s us F q v a p x : simp_num_pinv_dyn pinv tidy true s us = Ok F -> F q v a p = Ok x ->
  length q = lg_n s /\ length v = lg_n s /\ length a = lg_n s /\ length x = length us.
Proof.
  unfold simp_num_pinv_dyn. destruct (simp_sym_pinv_dyn _ _ _ _ _) as [sl|] eqn:Es; cbn [rbind]; [|discriminate].
  destruct (exhaustive_expr _ _) as [ex|]; cbn [rbind]; [|discriminate]. destruct (find_params _ _) as [pl|]; cbn [rbind]; [|discriminate].
  destruct (existsb _ _); [discriminate|]. intros H; injection H as <-. unfold lambdify4. rewrite !q_vec_map, !map_length. fold (lg_n s).
  destruct (Nat.eqb_spec (length q) (lg_n s)); cbn [andb negb]; [|discriminate].
  destruct (Nat.eqb_spec (length v) (lg_n s)); cbn [andb negb]; [|discriminate].
  destruct (Nat.eqb_spec (length a) (lg_n s)); cbn [andb negb]; [|discriminate].
  destruct (Nat.eqb (length p) _); cbn [negb]; [|discriminate]. intros H. apply mapm_length in H. repeat split; auto. rewrite H.
  unfold simp_sym_pinv_dyn in Es. cbn [negb] in Es. destruct us; [discriminate|]. apply (f_equal (fun r => match r with Ok l => length l | Err _ => 0%nat end)) in Es. cbv beta iota in Es. rewrite map_length, seq_length in Es. auto.
Qed.
