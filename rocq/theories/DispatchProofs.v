(** Proofs about the factory function and the result names. *)
From Coq Require Import String Ascii DecimalString DecimalNat.
From Verif Require Import Prelude PreludeFacts PwInterpModel PsModel PsPointsProofs DispatchModel DispatchSpec.
Open Scope string_scope.
Open Scope list_scope.

Lemma head3_spec : forall s p, String.length p = 3%nat -> head3 s = p -> s = String.append p (tail3 s).
Proof.
  intros s p L H. unfold head3, tail3 in *.
  destruct s as [|a [|b [|c s]]]; subst p; cbn in L; try lia.
  cbn. rewrite Nat.sub_0_r. f_equal. f_equal. f_equal.
  clear L. induction s as [|d s IH]; [reflexivity|]. cbn in *. f_equal.
  destruct s; cbn in *; exact IH.
Qed.

Lemma tail3_prefix : forall a b c s, tail3 (String a (String b (String c s))) = s.
Proof.
  intros. unfold tail3. cbn. rewrite Nat.sub_0_r.
  induction s as [|d s IH]; cbn; [reflexivity|]. f_equal. exact IH.
Qed.

Lemma all_In : forall (P : string -> bool) l, forallb P l = true -> forall s, In s l -> P s = true.
Proof. intros P l H s I. rewrite forallb_forall in H. auto. Qed.

Definition lists_ok : bool :=
  forallb (fun s => negb (head3 s =? "ph_")) (implemented_equispaced ++ implemented_schemes ++
     implemented_bottom_up ++ implemented_top_down).

Definition check_name (ph : bool) (f : family) (base : string) : bool :=
  let s := String.append (if ph then "ph_" else "") (String.append (family_prefix f) base) in
  match Opti_Problem LM_callable s "zero" with
  | Ok p => (op_scheme_mode p =? mode_of ph f) && (op_scheme p =? base) &&
            match op_sch p, class_of ph f with
            | Equispaced, Equispaced | Pseudospectral, Pseudospectral | BU_Pseudospectral, BU_Pseudospectral
            | TD_Pseudospectral, TD_Pseudospectral | multi_pseudospectral, multi_pseudospectral => true
            | _, _ => false
            end
  | Err _ => false
  end.

Lemma checks : forall ph f, forallb (check_name ph f) (plain_names f) = true.
Proof. intros [] []; vm_compute; reflexivity. Qed.

Lemma Opti_LM : forall LM s g, Opti_Problem LM s g =
  match Opti_Problem LM_callable s g with
  | Ok p => Ok (Build_opti_problem (dyn_of LM) (op_sch p) (op_ini p) (op_scheme_mode p) (op_scheme p))
  | Err e => Err e
  end.
Proof.
  intros. unfold Opti_Problem.
  repeat match goal with |- context [if ?b then _ else _] => destruct b; cbn [rbind] end;
    try reflexivity; destruct (problem_init s) as [[m sc]|e]; cbn [rbind]; try reflexivity; destruct LM; reflexivity.
Qed.

Definition ini_of (g : string) : option ini_class :=
  if g =? "zero" then Some Zero_init else if g =? "lin" then Some Lin_init
  else if g =? "waypoints" then Some Waypoints_init else if g =? "custom" then Some Custom_init else None.

Lemma Opti_ini : forall LM s g, Opti_Problem LM s g =
  match ini_of g, Opti_Problem LM s "zero" with
  | Some i, Ok p => Ok (Build_opti_problem (op_dyn p) (op_sch p) i (op_scheme_mode p) (op_scheme p))
  | None, Ok _ => Err NotImplementedError
  | _, Err e => Err e
  end.
Proof.
  intros. unfold Opti_Problem, ini_of. cbn [String.eqb Ascii.eqb Bool.eqb].
  assert (E : forall e, problem_init s = Err e -> e = NotImplementedError).
  { intros e. unfold problem_init. destruct (head3 s =? "ph_");
    repeat match goal with |- context [if ?b then _ else _] => destruct b; cbn [rbind] end; congruence. }
  destruct (if mem s implemented_equispaced then _ else _) as [c|e]; cbn [rbind].
  2:{ destruct (g =? "zero"), (g =? "lin"), (g =? "waypoints"), (g =? "custom"); reflexivity. }
  destruct (problem_init s) as [[m sc]|e]; cbn [rbind];
  destruct (g =? "zero"), (g =? "lin"), (g =? "waypoints"), (g =? "custom"); cbn; try reflexivity.
  rewrite (E e eq_refl). reflexivity.
Qed.

Lemma mem_In : forall s l, mem s l = true <-> In s l.
Proof.
  intros s l. unfold mem. rewrite existsb_exists. split.
  - intros [x [I E]]. apply String.eqb_eq in E. subst. exact I.
  - intros I. exists s. split; [exact I|apply String.eqb_refl].
Qed.

Lemma named : forall s, (exists ph f base, names ph f base s) \/
  Opti_Problem LM_callable s "zero" = Err NotImplementedError.
Proof.
  intros s. unfold Opti_Problem, problem_init. cbn [String.eqb Ascii.eqb Bool.eqb rbind].
  destruct (mem s implemented_equispaced) eqn:E1.
  { left. apply mem_In in E1. exists false, FEquispaced, s. split; [exact E1|reflexivity]. }
  destruct (mem s implemented_schemes) eqn:E2.
  { left. apply mem_In in E2. exists false, FPseudospectral, s. split; [exact E2|reflexivity]. }
  destruct (mem s implemented_bottom_up) eqn:E3.
  { left. apply mem_In in E3. apply in_map_iff in E3. destruct E3 as [b [E I]].
    exists false, FBottomUp, b. split; [exact I|symmetry; exact E]. }
  destruct (mem s implemented_top_down) eqn:E4.
  { left. apply mem_In in E4. apply in_map_iff in E4. destruct E4 as [b [E I]].
    exists false, FTopDown, b. split; [exact I|symmetry; exact E]. }
  destruct (head3 s =? "ph_") eqn:E5; [|right; reflexivity]. cbn [rbind].
  apply String.eqb_eq in E5. apply head3_spec in E5; [|reflexivity].
  destruct (mem (tail3 s) implemented_equispaced) eqn:F1.
  { left. apply mem_In in F1. exists true, FEquispaced, (tail3 s). split; [exact F1|exact E5]. }
  destruct (mem (tail3 s) implemented_schemes) eqn:F2.
  { left. apply mem_In in F2. exists true, FPseudospectral, (tail3 s). split; [exact F2|exact E5]. }
  destruct (mem (tail3 s) implemented_bottom_up) eqn:F3.
  { left. apply mem_In in F3. apply in_map_iff in F3. destruct F3 as [b [E I]].
    exists true, FBottomUp, b. split; [exact I|]. rewrite E5, <- E. reflexivity. }
  destruct (mem (tail3 s) implemented_top_down) eqn:F4.
  { left. apply mem_In in F4. apply in_map_iff in F4. destruct F4 as [b [E I]].
    exists true, FTopDown, b. split; [exact I|]. rewrite E5, <- E. reflexivity. }
  right. reflexivity.
Qed.

Lemma named_ok : forall ph f base s, names ph f base s -> exists p, Opti_Problem LM_callable s "zero" = Ok p /\
  op_sch p = class_of ph f /\ op_scheme_mode p = mode_of ph f /\ op_scheme p = base.
Proof.
  intros ph f base s [I E]. pose proof (all_In _ _ (checks ph f) base I) as C. unfold check_name in C.
  rewrite <- E in C. destruct (Opti_Problem LM_callable s "zero") as [p|e]; [|discriminate].
  apply andb_prop in C. destruct C as [C C3]. apply andb_prop in C. destruct C as [C1 C2].
  apply String.eqb_eq in C1, C2. exists p. repeat split; auto.
  destruct (op_sch p), (class_of ph f); congruence.
Qed.

Lemma ini_guess_names : forall g, ini_of g <> None <-> In g guess_names.
Proof.
  intros g. unfold ini_of, guess_names. cbn [In].
  destruct (String.eqb_spec g "zero") as [->|N1]; [intuition congruence|].
  destruct (String.eqb_spec g "lin") as [->|N2]; [intuition congruence|].
  destruct (String.eqb_spec g "waypoints") as [->|N3]; [intuition congruence|].
  destruct (String.eqb_spec g "custom") as [->|N4]; [intuition congruence|].
  intuition congruence.
Qed.

Lemma dispatch_ok : forall LM ph f base s g, names ph f base s -> In g guess_names ->
  exists p, Opti_Problem LM s g = Ok p /\ op_sch p = class_of ph f /\
    op_scheme_mode p = mode_of ph f /\ op_scheme p = base.
Proof.
  intros LM ph f base s g N G. destruct (named_ok _ _ _ _ N) as [p [E [C [M B]]]].
  rewrite Opti_ini, Opti_LM, E. apply ini_guess_names in G. destruct (ini_of g) as [i|]; [|congruence].
  eexists. split; [reflexivity|]. cbn. auto.
Qed.

Lemma dispatch_reject : forall LM s g, (~ exists ph f base, names ph f base s) \/ ~ In g guess_names ->
  Opti_Problem LM s g = Err NotImplementedError.
Proof.
  intros LM s g H. rewrite Opti_ini, Opti_LM. destruct (named s) as [Y|E]; [|rewrite E; destruct (ini_of g); reflexivity].
  destruct H as [H|H]; [contradiction|].
  destruct Y as [ph [f [base Y]]]. destruct (named_ok _ _ _ _ Y) as [p [E _]]. rewrite E.
  destruct (ini_of g) eqn:I; [|reflexivity]. exfalso. apply H. apply ini_guess_names. congruence.
Qed.

Lemma dispatch_unique : forall ph f base ph' f' base' s, names ph f base s -> names ph' f' base' s ->
  ph = ph' /\ f = f' /\ base = base'.
Proof.
  intros ph f base ph' f' base' s A B.
  destruct (named_ok _ _ _ _ A) as [p [E [C [M D]]]]. destruct (named_ok _ _ _ _ B) as [p' [E' [C' [M' D']]]].
  assert (p' = p) by congruence. subst p'. rewrite M in M'.
  destruct ph, f, ph', f'; try discriminate; intuition congruence.
Qed.

Lemma documented_partial : forall LM s g, In s documented_names -> s <> "BU_LG_inv" -> In g guess_names ->
  exists p, Opti_Problem LM s g = Ok p.
Proof.
  intros LM s g I N G. rewrite Opti_ini, Opti_LM. apply ini_guess_names in G.
  destruct (ini_of g); [|congruence].
  assert (exists p, Opti_Problem LM_callable s "zero" = Ok p) as [p ->].
  { unfold documented_names in I. cbn [In] in I.
    repeat (destruct I as [<-|I]; [first [now (exfalso; apply N) | eexists; vm_compute; reflexivity]|]). contradiction. }
  eexists. reflexivity.
Qed.

Lemma documented_refuted : forall LM g, In "BU_LG_inv" documented_names /\
  Opti_Problem LM "BU_LG_inv" g = Err NotImplementedError.
Proof.
  intros. split; [cbn; tauto|]. apply dispatch_reject. left. intros [ph [f [base [I E]]]].
  destruct ph; [discriminate|]. destruct f; cbn [family_prefix String.append] in E.
  - rewrite <- E in I. cbn in I. repeat (destruct I as [I|I]; [discriminate|]). exact I.
  - rewrite <- E in I. cbn in I. repeat (destruct I as [I|I]; [discriminate|]). exact I.
  - injection E as <-. cbn in I. repeat (destruct I as [I|I]; [discriminate|]). exact I.
  - discriminate.
Qed.

Lemma dispatch_dyn : forall LM s g p, Opti_Problem LM s g = Ok p -> op_dyn p = dyn_of LM.
Proof.
  intros LM s g p. rewrite Opti_ini, Opti_LM.
  destruct (ini_of g), (Opti_Problem LM_callable s "zero"); intros [= <-]; reflexivity.
Qed.

Lemma other_LM : forall s g, In s ["trapz"] -> In g guess_names ->
  exists p, Opti_Problem LM_other s g = Ok p /\ op_dyn p = None.
Proof.
  intros s g [<-|[]] G. destruct (dispatch_ok LM_other false FEquispaced "trapz" "trapz" g) as [p [E _]];
    [split; [cbn; tauto|reflexivity]|exact G|]. exists p. split; [exact E|]. exact (dispatch_dyn _ _ _ _ E).
Qed.

(** ** Names *)
Lemma py_str_inj : forall a b, py_str a = py_str b -> a = b.
Proof.
  intros a b H. unfold py_str in H. apply (f_equal NilEmpty.uint_of_string) in H.
  rewrite !NilEmpty.usu in H. injection H as H. apply DecimalNat.Unsigned.to_uint_inj. exact H.
Qed.

Definition der_name (k : nat) : string :=
  nth k ["q"; "v"; "a"; "jerk"; "snap"; "crackle"; "pop"] (String.append "d" (String.append (py_str k) "q")).

Lemma firstn_seq_map : forall order, get_q_and_ders_names order = map der_name (seq 0 (order + 1)).
Proof.
  intros order. unfold get_q_and_ders_names.
  assert (M : forall n, map (fun ii => String.append "d" (String.append (py_str ii) "q")) (seq 7 n)
     = map der_name (seq 7 n)).
  { intros n. apply map_ext_in. intros k I. apply in_seq in I. unfold der_name.
    rewrite nth_overflow; [reflexivity|cbn; lia]. }
  rewrite M. change ["q"; "v"; "a"; "jerk"; "snap"; "crackle"; "pop"] with (map der_name (seq 0 7)).
  rewrite <- map_app, <- (seq_app 7), firstn_map. f_equal.
  destruct (le_lt_dec 7 (order + 1)) as [L|L].
  - replace (7 + (order + 1 - 7))%nat with (order + 1)%nat by lia.
    rewrite <- (seq_length (order + 1) 0) at 1. apply firstn_all.
  - replace (7 + (order + 1 - 7))%nat with 7%nat by lia.
    replace 7%nat with ((order + 1) + (7 - (order + 1)))%nat by lia.
    rewrite seq_app, firstn_app, seq_length, Nat.sub_diag. cbn [firstn]. rewrite app_nil_r.
    rewrite <- (seq_length (order + 1) 0) at 1. apply firstn_all.
Qed.

Lemma names_length : forall order, length (get_q_and_ders_names order) = (order + 1)%nat.
Proof. intros. rewrite firstn_seq_map, map_length, seq_length. reflexivity. Qed.

Lemma append_inj_l : forall p a b, String.append p a = String.append p b -> a = b.
Proof. induction p as [|c p IH]; intros a b H; [exact H|]. injection H as H. auto. Qed.

Lemma append_q_inj : forall a b, String.append a "q" = String.append b "q" -> a = b.
Proof.
  induction a as [|c a IH]; intros [|d b] H; cbn in H.
  - reflexivity.
  - injection H as -> H. destruct b; discriminate.
  - injection H as -> H. destruct a; discriminate.
  - injection H as -> H. f_equal. auto.
Qed.

Lemma der_name_inj : forall a b, der_name a = der_name b -> a = b.
Proof.
  assert (W : forall a b, (a < 7)%nat -> (7 <= b)%nat -> der_name a <> der_name b).
  { intros a b La Lb H. unfold der_name in H. rewrite (nth_overflow _ _ (n := b)) in H by (cbn; lia).
    do 7 (destruct a as [|a]; [cbn in H; discriminate H|]). lia. }
  intros a b H. destruct (le_lt_dec 7 a) as [A|A], (le_lt_dec 7 b) as [B|B].
  - unfold der_name in H. rewrite !nth_overflow in H by (cbn; lia).
    apply append_inj_l in H. apply append_q_inj in H. exact (py_str_inj _ _ H).
  - exfalso. exact (W b a B A (eq_sym H)).
  - exfalso. exact (W a b A B H).
  - do 7 (destruct a as [|a]; [do 7 (destruct b as [|b]; [cbn in H; first [reflexivity|discriminate H]|]); lia|]). lia.
Qed.

Lemma names_NoDup : forall order, NoDup (get_q_and_ders_names order).
Proof.
  intros. rewrite firstn_seq_map. apply FinFun.Injective_map_NoDup; [exact der_name_inj|apply seq_NoDup].
Qed.

Lemma names_prefix : forall m n, (m <= n)%nat ->
  firstn (m + 1) (get_q_and_ders_names n) = get_q_and_ders_names m.
Proof.
  intros m n L. rewrite !firstn_seq_map, firstn_map. f_equal.
  replace (n + 1)%nat with ((m + 1) + (n - m))%nat by lia.
  rewrite seq_app, firstn_app, seq_length, Nat.sub_diag. cbn [firstn]. rewrite app_nil_r.
  rewrite <- (seq_length (m + 1) 0) at 1. apply firstn_all.
Qed.

Lemma names_values : forall order k, (k <= order)%nat ->
  nth_error (get_q_and_ders_names order) k =
  Some (match k with 0 => "q" | 1 => "v" | 2 => "a" | 3 => "jerk" | 4 => "snap" | 5 => "crackle" | 6 => "pop"
        | _ => String.append "d" (String.append (NilEmpty.string_of_uint (Nat.to_uint k)) "q") end)%nat.
Proof.
  intros order k L. rewrite firstn_seq_map. rewrite nth_error_map.
  assert (E : nth_error (seq 0 (order + 1)) k = Some (nth k (seq 0 (order + 1)) 0%nat)).
  { apply nth_error_nth'. rewrite seq_length. lia. }
  rewrite E, seq_nth by lia. cbn [option_map plus]. f_equal. unfold der_name.
  do 7 (destruct k as [|k]; [reflexivity|]). rewrite nth_overflow by (cbn; lia). reflexivity.
Qed.
