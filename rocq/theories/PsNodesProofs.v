(** Node sets, index maps and the arrays of the pseudospectral problem (C19-C21). *)
From Coq Require Import String Sorting.Sorted Classical_Prop ClassicalChoice Wf_nat.
From Verif Require Import Prelude PreludeFacts Poly PolyFacts PolyInterp Mat MatFacts
  PwInterpModel PsModel JacobiFacts PsSpec PsPointsProofs PsBaryProofs.
Open Scope R_scope.
Open Scope list_scope.

Definition b2n (b : bool) : nat := if b then 1 else 0.
Definition nstarts (s : string) : bool := negb (mem s gauss_inv_schemes).
Definition nends (s : string) : bool := negb (mem s gauss_schemes).

Lemma take_with_ends (l1 r1 l2 r2 : bool) c : (l2 = true -> l1 = true) -> (r2 = true -> r1 = true) ->
  take (b2n l1 - b2n l2, b2n r1 - b2n r2)%nat (with_ends l1 r1 c) = with_ends l2 r2 c.
Proof.
  intros Hl Hr. unfold take, with_ends.
  destruct l1, l2; try (specialize (Hl eq_refl); discriminate);
  destruct r1, r2; try (specialize (Hr eq_refl); discriminate);
  cbn [fst snd b2n Nat.sub skipn app]; rewrite ?app_nil_r, ?Nat.sub_0_r;
  try (rewrite firstn_all; reflexivity).
  all: try (cbn [length app]; rewrite app_length; cbn [length];
    replace (S (length c + 1) - 1)%nat with (S (length c)) by lia; cbn [firstn];
    now rewrite firstn_app, Nat.sub_diag, firstn_all, firstn_O, app_nil_r).
  all: cbn [length app]; rewrite ?app_length; cbn [length];
    rewrite ?Nat.add_sub, ?Nat.sub_succ, ?Nat.sub_0_r, ?Nat.add_sub; try (now rewrite firstn_all).
  all: try (rewrite firstn_all2; [reflexivity|rewrite app_length; simpl; lia]).
  all: now rewrite firstn_app, Nat.sub_diag, firstn_all, firstn_O, app_nil_r.
Qed.

Section Nodes.
Variable rr : list R -> list R.
Hypothesis OK : real_roots_ok rr.

(** Number of nodes of a scheme with [N] collocation points. *)
Definition nodes_of (s : string) (N : nat) : nat :=
  (b2n (nstarts s) + (N - b2n (starts s) - b2n (ends s)) + b2n (nends s))%nat.

Lemma nodes_shape s N : In s all_schemes -> enough_points s N ->
  exists c, inner_set (N - b2n (starts s) - b2n (ends s)) c /\
    coll_points rr N s 2 = Ok (with_ends (starts s) (ends s) c) /\
    n_col_to_n_nodes s N = Ok (nodes_of s N) /\
    node_points rr (nodes_of s N) s = Ok (with_ends (nstarts s) (nends s) c).
Proof.
  intros H E. destruct (coll_points_inner rr OK s N 2 H E) as (c & Ec & S).
  exists c. split; [exact S|]. split; [exact Ec|]. revert Ec. destruct E as [E1 E2].
  assert (K1 : (N + 1 - 1)%nat = N) by lia.
  scheme_cases H;
    try (assert (E3 : (2 <= N)%nat) by (apply E2; cbv; tauto));
    match goal with |- context [coll_points rr N ?s _] =>
      let b := eval cbv in (starts s) in change (starts s) with b;
      let b := eval cbv in (ends s) in change (ends s) with b;
      let b := eval cbv in (nstarts s) in change (nstarts s) with b;
      let b := eval cbv in (nends s) in change (nends s) with b;
      let b := eval cbv in (gauss_like ++ radau_inv)%list in set (g1 := (gauss_like ++ radau_inv)%list); change g1 with b;
      intros Ec;
      (split;
       [ let r := eval cbv [n_col_to_n_nodes mem existsb String.eqb Ascii.eqb Bool.eqb orb gauss_like gauss_inv gauss_2 radau_like radau_inv lobato_like other_schemes map app String.append]
           in (n_col_to_n_nodes s N) in change (n_col_to_n_nodes s N) with r;
         f_equal; unfold nodes_of;
         let b := eval cbv in (starts s) in change (starts s) with b;
         let b := eval cbv in (ends s) in change (ends s) with b;
         let b := eval cbv in (nstarts s) in change (nstarts s) with b;
         let b := eval cbv in (nends s) in change (nends s) with b; cbn [b2n]; lia
       | idtac ]) end.
  all: unfold nodes_of;
    match goal with |- node_points rr (b2n (nstarts ?s) + _ + _) _ = _ =>
      let b := eval cbv in (starts s) in change (starts s) with b;
      let b := eval cbv in (ends s) in change (ends s) with b;
      let b := eval cbv in (nstarts s) in change (nstarts s) with b;
      let b := eval cbv in (nends s) in change (nends s) with b end; cbn [b2n];
    match goal with |- node_points rr ?n ?s = _ =>
      let r := eval cbv [node_points mem existsb String.eqb Ascii.eqb Bool.eqb orb gauss_like gauss_inv gauss_2 radau_like radau_inv lobato_like other_schemes map app String.append]
           in (node_points rr n s) in change (node_points rr n s) with r end;
    first
    [ match goal with |- context [coll_points rr ?n ?s 2] => replace n with N by lia end;
      rewrite Ec; cbn [rbind]; unfold with_ends; cbn [app]; rewrite ?app_nil_r; reflexivity
    | match goal with |- context [LGL rr ?n] => replace n with N by lia end; exact Ec ].
Qed.

Lemma nodes_of_coll s N : In s all_schemes -> enough_points s N -> n_col_to_n_nodes s N = Ok (nodes_of s N).
Proof. intros H E. now destruct (nodes_shape s N H E) as (c & _ & _ & K & _). Qed.

(** Families as the code names them agree with the specification's lists. *)
Lemma nstarts_spec s : nstarts s = true <-> ~ In s gauss_inv_schemes.
Proof. unfold nstarts. rewrite <- mem_In. destruct (mem s gauss_inv_schemes); simpl; split; congruence. Qed.
Lemma nends_spec s : nends s = true <-> ~ In s gauss_schemes.
Proof. unfold nends. rewrite <- mem_In. destruct (mem s gauss_schemes); simpl; split; congruence. Qed.

(** ** The set-up of the problem *)
Lemma setup_shape p : In (ps_scheme p) all_schemes -> enough_points (ps_scheme p) (ps_n_coll p) ->
  (In (ps_scheme p) second_order_schemes -> ps_order p = 2%nat) ->
  exists c, inner_set (ps_n_coll p - b2n (starts (ps_scheme p)) - b2n (ends (ps_scheme p))) c /\
    coll_points rr (ps_n_coll p) (ps_scheme p) 2 = Ok (with_ends (starts (ps_scheme p)) (ends (ps_scheme p)) c) /\
    node_points rr (nodes_of (ps_scheme p) (ps_n_coll p)) (ps_scheme p)
      = Ok (with_ends (nstarts (ps_scheme p)) (nends (ps_scheme p)) c) /\
    length (with_ends (nstarts (ps_scheme p)) (nends (ps_scheme p)) c) = nodes_of (ps_scheme p) (ps_n_coll p) /\
    opti_setup rr p = Ok {|
      pset_n_nodes := nodes_of (ps_scheme p) (ps_n_coll p);
      pset_n_arr := 2 + length c;
      pset_D := Dmat (with_ends (nstarts (ps_scheme p)) (nends (ps_scheme p)) c);
      pset_tau := with_ends true true c;
      pset_tau_node := with_ends (nstarts (ps_scheme p)) (nends (ps_scheme p)) c;
      pset_tau_col := with_ends (starts (ps_scheme p)) (ends (ps_scheme p)) c;
      pset_node := (1 - b2n (nstarts (ps_scheme p)), 1 - b2n (nends (ps_scheme p)))%nat |}.
Proof.
  intros H E O2. destruct (nodes_shape _ _ H E) as (c & S & Ec & En & Ep).
  exists c. split; [exact S|]. split; [exact Ec|]. split; [exact Ep|].
  assert (L : length (with_ends (nstarts (ps_scheme p)) (nends (ps_scheme p)) c) = nodes_of (ps_scheme p) (ps_n_coll p)).
  { unfold nodes_of, with_ends, b2n. destruct S as [S _]. unfold b2n in S. rewrite !app_length, S.
    destruct (nstarts _), (nends _); simpl length; lia. }
  split; [exact L|].
  unfold opti_setup.
  assert (O : mem (ps_scheme p) (gauss_2 ++ ["D2"%string]) && negb (ps_order p =? 2)%nat = false).
  { destruct (mem (ps_scheme p) (gauss_2 ++ ["D2"%string])) eqn:M; [|reflexivity]. simpl.
    rewrite O2; [reflexivity|]. pose proof (proj1 (mem_In _ _) M) as M'. cbv in M'. cbv. tauto. }
  assert (I : exists ij, get_coll_indices_from_nodes (ps_scheme p) = Ok ij).
  { clear - H. scheme_cases H; rewrite <- H; eexists; cbv; reflexivity. }
  destruct I as [ij ->]. cbn [rbind]. rewrite O, En. cbn [rbind]. rewrite Ec. cbn [rbind].
  rewrite Ep. cbn [rbind]. rewrite (matrix_D_bary_ok rr _ _ _ Ep L).
  assert (L2 : length c = (ps_n_coll p - b2n (starts (ps_scheme p)) - b2n (ends (ps_scheme p)))%nat) by apply S.
  assert (M1 : mem (ps_scheme p) gauss_like = negb (nends (ps_scheme p))) by (unfold nends; now rewrite Bool.negb_involutive).
  assert (M2 : mem (ps_scheme p) gauss_inv = negb (nstarts (ps_scheme p))) by (unfold nstarts; now rewrite Bool.negb_involutive).
  rewrite M1, M2. unfold nodes_of. rewrite <- L2.
  destruct (nends (ps_scheme p)) eqn:Ne, (nstarts (ps_scheme p)) eqn:Ns; cbn [negb rbind b2n];
    repeat (f_equal; try lia); unfold with_ends; cbn [app]; rewrite ?app_nil_r; try reflexivity.
  all: exfalso; unfold nends, nstarts in *; clear - H Ne Ns; scheme_cases H; rewrite <- H in *; cbv in *; discriminate.
Qed.
End Nodes.

(** ** An oracle for the real roots exists *)
Fixpoint insert_sorted (r : R) (l : list R) : list R :=
  match l with
  | [] => [r]
  | a :: l' => if Rle_dec r a then r :: l else a :: insert_sorted r l'
  end.
Lemma insert_sorted_In r l x : In x (insert_sorted r l) <-> x = r \/ In x l.
Proof.
  induction l as [|a l IH]; simpl; [intuition|]. destruct (Rle_dec r a); simpl; [intuition|].
  rewrite IH. intuition.
Qed.
Lemma insert_sorted_ok r l : StronglySorted Rle l -> StronglySorted Rle (insert_sorted r l).
Proof.
  induction 1 as [|a l S IH F]; simpl; [repeat constructor|].
  destruct (Rle_dec r a) as [K|K].
  - constructor; [now constructor|]. constructor; [exact K|]. rewrite Forall_forall in *. intros x I.
    specialize (F x I). lra.
  - constructor; [exact IH|]. apply Forall_forall. intros x I. apply insert_sorted_In in I.
    destruct I as [->|I]; [lra|]. rewrite Forall_forall in F. auto.
Qed.
Lemma insert_sorted_prod r l x : peval (pfromroots (insert_sorted r l)) x = (x - r) * peval (pfromroots l) x.
Proof.
  rewrite !peval_pfromroots. induction l as [|a l IH]; simpl; [ring|].
  destruct (Rle_dec r a); simpl; [ring|]. rewrite IH. ring.
Qed.

Lemma real_roots_exist_for c : (exists x, peval c x <> 0) -> exists rs, roots_with_multiplicity c rs.
Proof.
  remember (length c) as n eqn:L. revert c L.
  induction n as [n IH] using lt_wf_ind. intros c L [x0 H0].
  destruct (Classical_Prop.classic (exists r, peval c r = 0)) as [[r Hr]|No].
  - destruct (poly_div_root c r) as (q & Lq & Q).
    assert (0 < length c)%nat by (destruct c; simpl in *; [congruence|lia]).
    destruct (IH (length q) ltac:(lia) q eq_refl) as (rs & S & d & D1 & D2).
    { exists x0. intros K. apply H0. rewrite Q, K, Hr. ring. }
    exists (insert_sorted r rs). split; [now apply insert_sorted_ok|].
    exists d. split; [exact D1|]. intros x. rewrite Q, Hr, D2, insert_sorted_prod. ring.
  - exists []. split; [constructor|]. exists c. split.
    + intros x K. apply No. now exists x.
    + intros x. simpl. ring.
Qed.
Lemma real_roots_exist : exists rr, real_roots_ok rr.
Proof.
  destruct (ClassicalChoice.choice (fun c rs => (exists x, peval c x <> 0) -> roots_with_multiplicity c rs)) as [f F].
  - intros c. destruct (Classical_Prop.classic (exists x, peval c x <> 0)) as [K|K].
    + destruct (real_roots_exist_for c K) as [rs R]. now exists rs.
    + exists []. intros. contradiction.
  - now exists f.
Qed.
